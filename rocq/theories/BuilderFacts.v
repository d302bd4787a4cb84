(** Consequences of BuilderProofs.v in the form the properties use. *)
From Coq Require Import List Bool String Arith Lia.
From Verif Require Import ProxyTypes ArgsModel CtxModel RustAst CommonGen StructGen
  CodegenSpec RustSem FieldSpec FieldRun BuilderModel BuilderSpec BuilderProofs.
Import ListNotations.
Open Scope string_scope.

(** No field with a setter that is not asked for. *)
Definition no_named_off (c : sctx) : Prop := forall f, In f (builder_input c) -> named_off c f = false.
(** The fields build() checks. *)
Definition is_checked (dflt : nat) (user : string -> nat) (c : sctx) (f : field) : Prop :=
  (named_off c f = false /\ must_be_set dflt user c f = true) \/ is_builder_required c f = true.
(** The first field of the builder with a property. *)
Definition first_field (c : sctx) (p : field -> Prop) (x : string) : Prop :=
  exists before f after, builder_input c = (before ++ f :: after)%list /\ f_ident f = x /\ p f /\
    forall f', In f' before -> ~ p f'.

Lemma find_split : forall A (p : A -> bool) l x, find p l = Some x ->
  exists a b, l = (a ++ x :: b)%list /\ p x = true /\ forall y, In y a -> p y = false.
Proof.
  induction l as [|y l IH]; intros x H; cbn in H; [discriminate|]. destruct (p y) eqn:E.
  - injection H as <-. exists [], l. repeat split; auto. intros ? [].
  - destruct (IH x H) as (a & b & -> & Hx & Ha). exists (y :: a), b. repeat split; auto.
    intros z [<-|Hz]; auto.
Qed.
Lemma find_app_none : forall A (p : A -> bool) a x b, (forall y, In y a -> p y = false) -> p x = true ->
  find p (a ++ x :: b) = Some x.
Proof.
  induction a as [|y a IH]; intros x b H Hx; cbn; [now rewrite Hx|].
  rewrite (H y (or_introl eq_refl)). apply IH; auto. intros z Hz. apply H. now right.
Qed.

(** ** Forms *)
Lemma missing_ext : forall es g h, (forall x, g x = h x) -> first_missing es g = first_missing es h.
Proof.
  intros es g h E. unfold first_missing. f_equal. apply find_ext. intros e _. now rewrite E.
Qed.
Lemma content_ext : forall g h e, (forall x, g x = h x) -> entry_content g e = entry_content h e.
Proof. intros g h e E. unfold entry_content. now rewrite E. Qed.
Lemma contents_ext : forall es g h, (forall x, g x = h x) -> contents es g = contents es h.
Proof.
  intros es g h E. induction es as [|e es IH]; cbn; [reflexivity|].
  rewrite (content_ext g h e E), IH. reflexivity.
Qed.
Lemma spec_build_ext : forall es g h, (forall x, g x = h x) -> spec_build es g = spec_build es h.
Proof. intros es g h E. unfold spec_build. rewrite (missing_ext es g h E), (contents_ext es g h E). reflexivity. Qed.
Lemma taken_all : forall es g l, contents es g = Some l -> taken es g = es.
Proof.
  induction es as [|e es IH]; intros g l H; cbn in *; [reflexivity|].
  destruct (entry_content g e); [|discriminate]. destruct (contents es g) eqn:E; [|discriminate].
  f_equal. eapply IH, E.
Qed.
Definition filled (g : form) (l : list (string * nat)) : form :=
  fold_left (fun g p => fill g (fst p) (snd p)) l g.
Lemma filled_is : forall l g x, filled g l x = match last_given l x with Some n => Some n | None => g x end.
Proof.
  unfold filled. induction l as [|[y n] l IH]; intros g x; cbn; [reflexivity|]. rewrite IH.
  destruct (last_given l x); [reflexivity|]. unfold fill. destruct (String.eqb y x); reflexivity.
Qed.
Lemma last_given_in : forall l x, last_given l x = None <-> ~ In x (map fst l).
Proof.
  induction l as [|[y n] l IH]; intros x; cbn; [tauto|]. specialize (IH x).
  destruct (last_given l x) as [m|].
  - split; [discriminate|]. intros H. exfalso.
    assert (N : ~ ~ In x (map fst l)) by (intros Q; apply IH in Q; discriminate).
    apply N. intros Q. apply H. now right.
  - destruct (String.eqb_spec y x) as [->|N].
    + split; [discriminate|]. intros H. destruct H. now left.
    + split; [|reflexivity]. intros _ [E|Q]; [auto|]. now apply IH.
Qed.
Lemma last_given_some : forall l x, last_given l x <> None <-> In x (map fst l).
Proof.
  intros l x. split.
  - intros H. destruct (in_dec string_dec x (map fst l)) as [I|I]; [exact I|].
    apply last_given_in in I. contradiction.
  - intros I H. apply last_given_in in H. contradiction.
Qed.
Lemma forms_sets : forall es l t g, forallb (fun p => can_set es (fst p)) l = true ->
  spec_forms es (sets l ++ t) g = spec_forms es t (filled g l).
Proof.
  induction l as [|[x n] l IH]; intros t g H; cbn in *; [reflexivity|].
  apply andb_true_iff in H as [-> H]. now rewrite IH.
Qed.
Lemma forms_sets_inv : forall es l t g r, spec_forms es (sets l ++ t) g = Some r ->
  forallb (fun p => can_set es (fst p)) l = true.
Proof.
  induction l as [|[x n] l IH]; intros t g r H; cbn in *; [reflexivity|].
  destruct (can_set es x); [|discriminate]. cbn. eapply IH, H.
Qed.
Lemma forms_app : forall es l1 l2 g rs g', spec_forms es (l1 ++ l2) g = Some (rs, g') ->
  exists rs1 g1 rs2, spec_forms es l1 g = Some (rs1, g1) /\ spec_forms es l2 g1 = Some (rs2, g') /\
    rs = (rs1 ++ rs2)%list.
Proof.
  induction l1 as [|[x n|] l1 IH]; intros l2 g rs g' H; cbn in *.
  - exists [], g, rs. auto.
  - destruct (can_set es x); [|discriminate]. eapply IH, H.
  - destruct (spec_forms es (l1 ++ l2) _) as [[rs' g1]|] eqn:E; [|discriminate]. injection H as <- <-.
    destruct (IH _ _ _ _ E) as (rs1 & g2 & rs2 & -> & E2 & ->). eexists _, _, _. repeat split; eauto.
Qed.

Section Facts.
Variable dflt : nat.
Variable user : string -> nat.
Variable c : sctx.
Variable post : object -> outcome object nat.
Notation es := (entries dflt user c).
Notation run := (build_run dflt user c post).
Notation must f := (must_be_set dflt user c f = true).

(** ** Facts that need no assumption about the struct *)
Lemma no_setter_stuck : forall x n b, can_set es x = false -> call_setter dflt user c x n b = None.
Proof.
  intros x n b H. unfold call_setter, find_setter.
  destruct (find _ (builder_setters c)) as [[y m]|] eqn:F; [|reflexivity]. exfalso.
  apply find_some in F as [F E]. cbn in E. apply String.eqb_eq in E. subst y.
  unfold builder_setters in F. apply in_flat_map in F as (f & Hf & F).
  destruct (field_builder (cfg_of c f)) as [m'|] eqn:B; [|destruct F]. destruct F as [F|[]]. injection F as Hx <-.
  unfold can_set in H. rewrite <- not_true_iff_false in H. apply H. apply existsb_exists.
  exists (entry_of dflt user c f). split; [unfold entries; now apply in_map|]. cbn. rewrite Hx, String.eqb_refl. cbn.
  unfold field_builder in B; cbn in B. unfold has_setter. rewrite orb_comm.
  destruct (forced_builder f || needs_builder c f); [reflexivity|discriminate].
Qed.
Lemma forms_stuck : forall l b g, spec_forms es l g = None -> run l b = None.
Proof.
  induction l as [|[x n|] l IH]; intros b g H; cbn in *; [discriminate| |].
  - destruct (can_set es x) eqn:C.
    + destruct (call_setter dflt user c x n b); [|reflexivity]. eapply IH, H.
    + rewrite no_setter_stuck; auto.
  - destruct (build dflt user c post b) as [[r b1] ps].
    destruct (spec_forms es l (form_after es g)) as [[]|] eqn:E; [discriminate|].
    rewrite (IH b1 _ E). reflexivity.
Qed.
Lemma run_app : forall l1 l2 b rs b', run (l1 ++ l2) b = Some (rs, b') <->
  exists rs1 b1 rs2, run l1 b = Some (rs1, b1) /\ run l2 b1 = Some (rs2, b') /\ rs = (rs1 ++ rs2)%list.
Proof.
  induction l1 as [|[x n|] l1 IH]; intros l2 b rs b'; cbn.
  - split.
    + intros H. exists [], b, rs. auto.
    + intros (rs1 & b1 & rs2 & H1 & H2 & ->). injection H1 as <- <-. exact H2.
  - destruct (call_setter dflt user c x n b); [apply IH|]. split; [discriminate|].
    intros (? & ? & ? & H & _). discriminate.
  - destruct (build dflt user c post b) as [[r b0] ps]. split.
    + intros H. destruct (run (l1 ++ l2) b0) as [[rs' b1]|] eqn:E; [|discriminate]. injection H as <- <-.
      apply IH in E as (rs1 & b2 & rs2 & -> & E2 & ->). eexists _, _, _. repeat split; eauto.
    + intros (rs1 & b1 & rs2 & H1 & H2 & ->).
      destruct (run l1 b0) as [[rs3 b3]|] eqn:E; [|discriminate]. injection H1 as <- <-.
      assert (X : run (l1 ++ l2) b0 = Some ((rs3 ++ rs2)%list, b')) by (apply IH; eauto 8).
      rewrite X. reflexivity.
Qed.
Lemma missing_keeps : forall b x b' ps, build dflt user c post b = (BMissing x, b', ps) -> b' = b /\ ps = [].
Proof.
  intros b x b' ps H. unfold build in H. destruct (failed_check c b).
  - injection H as <- <- <-. auto.
  - destruct (make dflt user c (builder_input c) b); try discriminate.
    exfalso. injection H as H _ _. unfold finish_build in H. destruct (construct c post _ _) as [[] ?]; discriminate.
Qed.
Lemma failed_build_skipped : forall l1 l2 b rs1 b1 x ps rs2 b2, run l1 b = Some (rs1, b1) ->
  run (l1 ++ BBuild :: l2) b = Some ((rs1 ++ (BMissing x, ps) :: rs2)%list, b2) ->
  ps = [] /\ run (l1 ++ l2) b = Some ((rs1 ++ rs2)%list, b2).
Proof.
  intros l1 l2 b rs1 b1 x ps rs2 b2 H1 H. apply run_app in H as (rs1' & b1' & rs2' & H1' & H2 & E).
  rewrite H1 in H1'. injection H1' as <- <-. apply app_inv_head in E. subst rs2'. cbn in H2.
  destruct (build dflt user c post b1) as [[r b0] ps0] eqn:B.
  destruct (run l2 b0) as [[rs3 b3]|] eqn:R; [|discriminate]. injection H2 as -> -> -> ->.
  apply missing_keeps in B as [-> ->]. split; [reflexivity|]. apply run_app. eauto 8.
Qed.

(** Builders that agree at every field behave alike. *)
Notation "b ~ d" := (forall x : string, (b : bobj) x = d x) (at level 70).
Lemma bset_ext : forall (b d : bobj) x v, b ~ d -> bset b x v ~ bset d x v.
Proof. intros b d x v E y. unfold bset. destruct (String.eqb x y); [reflexivity|apply E]. Qed.
Lemma make_ext : forall l b d, b ~ d ->
  match make dflt user c l b, make dflt user c l d with
  | Made o b', Made o' d' => o = o' /\ b' ~ d'
  | MadePanic b', MadePanic d' => b' ~ d'
  | MadeStuck, MadeStuck => True
  | _, _ => False
  end.
Proof.
  induction l as [|f l IH]; intros b d E; cbn; [auto|].
  destruct (field_type c f), (field_build_value c f); auto. rewrite <- (E (f_ident f)).
  destruct (run_value _ _ _ _ _ _ _ _) as [[[v rest]|]|]; auto.
  specialize (IH _ _ (bset_ext b d (f_ident f) rest E)).
  destruct (make dflt user c l (bset b (f_ident f) rest)), (make dflt user c l (bset d (f_ident f) rest)); try tauto.
  destruct IH as [-> IH]. auto.
Qed.
Lemma build_ext : forall b d r b' ps, b ~ d -> build dflt user c post b = (r, b', ps) ->
  exists d', build dflt user c post d = (r, d', ps) /\ b' ~ d'.
Proof.
  intros b d r b' ps E H. unfold build in *.
  assert (F : failed_check c d = failed_check c b).
  { unfold failed_check. apply find_ext. intros x _. now rewrite (E x). }
  rewrite F. destruct (failed_check c b).
  - injection H as <- <- <-. eauto.
  - pose proof (make_ext (builder_input c) b d E) as M.
    destruct (make dflt user c (builder_input c) b), (make dflt user c (builder_input c) d); try contradiction;
    injection H as <- <- <-; [destruct M as [<- M]| |]; eauto.
Qed.
Lemma setter_ext : forall b d x n b', b ~ d -> call_setter dflt user c x n b = Some b' ->
  exists d', call_setter dflt user c x n d = Some d' /\ b' ~ d'.
Proof.
  intros b d x n b' E H. unfold call_setter in *. rewrite <- (E x).
  destruct (find_setter c x); [|discriminate].
  destruct (call idle false false dflt user m n (mk_st (b x) 0 false 0)) as [v s| | |]; try discriminate.
  destruct v; try discriminate. injection H as <-. eexists. split; [reflexivity|]. now apply bset_ext.
Qed.
Lemma run_ext : forall l b d rs b', b ~ d -> run l b = Some (rs, b') ->
  exists d', run l d = Some (rs, d') /\ b' ~ d'.
Proof.
  induction l as [|[x n|] l IH]; intros b d rs b' E H; cbn in *.
  - injection H as <- <-. eauto.
  - destruct (call_setter dflt user c x n b) as [b1|] eqn:C; [|discriminate].
    destruct (setter_ext b d x n b1 E C) as (d1 & -> & E1). eapply IH; eauto.
  - destruct (build dflt user c post b) as [[r b1] ps] eqn:B.
    destruct (build_ext b d r b1 ps E B) as (d1 & -> & E1).
    destruct (run l b1) as [[rs' b2]|] eqn:R; [|discriminate]. injection H as <- <-.
    destruct (IH b1 d1 _ _ E1 R) as (d2 & -> & E2). eauto.
Qed.
Lemma setter_leaves : forall x n b b', call_setter dflt user c x n b = Some b' ->
  exists v, b' = bset b x v.
Proof.
  intros x n b b' H. unfold call_setter in H. destruct (find_setter c x); [|discriminate].
  destruct (call idle false false dflt user m n (mk_st (b x) 0 false 0)) as [v s| | |]; try discriminate.
  destruct v; try discriminate. injection H as <-. eauto.
Qed.
Lemma setters_commute : forall x n y m b b', x <> y ->
  run [BSet x n; BSet y m] b = Some ([], b') ->
  exists d', run [BSet y m; BSet x n] b = Some ([], d') /\ b' ~ d'.
Proof.
  intros x n y m b b' N H. cbn in *. unfold call_setter in *.
  destruct (find_setter c x) as [mx|]; [|discriminate].
  destruct (call idle false false dflt user mx n (mk_st (b x) 0 false 0)) as [v s| | |] eqn:Cx; try discriminate.
  destruct v; try discriminate. destruct (find_setter c y) as [my|]; [|discriminate].
  unfold bset at 1 in H. destruct (String.eqb_spec x y) as [E|_]; [contradiction|].
  destruct (call idle false false dflt user my m (mk_st (b y) 0 false 0)) as [v s'| | |] eqn:Cy; try discriminate.
  destruct v; try discriminate. injection H as <-. unfold bset at 1.
  destruct (String.eqb_spec y x) as [E|_]; [congruence|]. rewrite Cx. eexists. split; [reflexivity|].
  intros z. unfold bset. destruct (String.eqb_spec x z), (String.eqb_spec y z); congruence.
Qed.
Lemma histories_commute : forall l1 x n y m l2 b rs b', x <> y ->
  run (l1 ++ BSet x n :: BSet y m :: l2) b = Some (rs, b') ->
  exists d', run (l1 ++ BSet y m :: BSet x n :: l2) b = Some (rs, d') /\ b' ~ d'.
Proof.
  intros l1 x n y m l2 b rs b' N H.
  apply run_app in H as (rs1 & b1 & rs2 & H1 & H2 & ->).
  change (BSet x n :: BSet y m :: l2) with ([BSet x n; BSet y m] ++ l2)%list in H2.
  apply run_app in H2 as (rs3 & b2 & rs4 & H3 & H4 & ->).
  assert (rs3 = []).
  { cbn in H3. destruct (call_setter dflt user c x n b1); [|discriminate].
    destruct (call_setter dflt user c y m b0); [|discriminate]. now injection H3. }
  subst rs3. destruct (setters_commute x n y m b1 b2 N H3) as (d2 & H5 & E).
  destruct (run_ext l2 b2 d2 rs4 b' E H4) as (d3 & H6 & E3).
  exists d3. split; [|exact E3]. apply run_app. exists rs1, b1, ([] ++ rs4)%list. repeat split; auto.
  change (BSet y m :: BSet x n :: l2) with ([BSet y m; BSet x n] ++ l2)%list.
  apply run_app. eauto 8.
Qed.

(** ** Construction *)
Lemma compiles_iff : (exists p, build_compiles c p = true) <->
  s_is_ref_counted (c_args c) && has_post_build c && has_error_type c = false.
Proof.
  unfold build_compiles, construction.
  destruct (s_is_ref_counted (c_args c)), (has_post_build c), (has_error_type c); cbn;
  (split; [try reflexivity; intros [[] H]; discriminate H|]);
  intros H; try discriminate H; try (now exists true); try (now exists false).
Qed.
Lemma finish_plain : has_post_build c = false -> forall o, finish_build c post o = (BDone o, []).
Proof.
  intros H o. unfold finish_build, construction. rewrite H. destruct (s_is_ref_counted (c_args c)); reflexivity.
Qed.
Lemma finish_posted : forall p, build_compiles c p = true -> has_post_build c = true -> forall o,
  finish_build c post o =
    (match post o with
     | BOk o' => BDone o'
     | BErr e => if p then BFailed e else BPanicked
     | BPanic => BPanicked
     end, [o]).
Proof.
  intros p Hc H o. unfold build_compiles in Hc. unfold finish_build, construction in *. rewrite H in *.
  destruct (s_is_ref_counted (c_args c)), (has_error_type c) eqn:E, p; cbn in *; try discriminate Hc;
  rewrite ?E; destruct (post o); reflexivity.
Qed.
Lemma finish_never_stuck : forall p, build_compiles c p = true -> forall o, fst (finish_build c post o) <> BStuck.
Proof.
  intros p Hc o. destruct (has_post_build c) eqn:H.
  - rewrite (finish_posted p Hc H). cbn. destruct (post o), p; discriminate.
  - rewrite (finish_plain H). discriminate.
Qed.
Lemma finish_never_missing : forall o x, fst (finish_build c post o) <> BMissing x.
Proof.
  intros o x. unfold finish_build. destruct (construct c post _ o) as [[] ?]; discriminate.
Qed.

(** ** Fields and entries *)
Lemma required_setter_own : forall f, own_content dflt user c f = None -> has_setter c f = true.
Proof.
  intros f H. unfold own_content in H. destruct (default_value f); [discriminate|].
  destruct (is_lazy c f || is_optional c f); [discriminate|].
  destruct (has_setter c f); [reflexivity|]. rewrite orb_true_r in H. discriminate.
Qed.
Lemma must_entry : forall f, en_must (entry_of dflt user c f) = true -> must f.
Proof.
  intros f H. cbn in H. destruct (named_off c f); [|exact H]. unfold must_be_set. now rewrite H.
Qed.
Lemma checked_entry_iff : forall f, en_must (entry_of dflt user c f) = true <-> is_checked dflt user c f.
Proof.
  intros f. unfold is_checked. cbn. destruct (named_off c f).
  - intuition discriminate.
  - unfold must_be_set. destruct (is_builder_required c f); cbn; intuition.
Qed.
Lemma checked_must : no_named_off c -> forall f, In f (builder_input c) ->
  (is_checked dflt user c f <-> must f).
Proof.
  intros Ho f Hf. unfold is_checked. rewrite (Ho f Hf). split; [intros [[_ H]|H]; auto|auto].
  unfold must_be_set. now rewrite H.
Qed.
Lemma missing_first : forall g x, first_missing es g = Some x <->
  first_field c (fun f => is_checked dflt user c f /\ g (f_ident f) = None) x.
Proof.
  intros g x. unfold first_missing, entries, first_field. rewrite find_map.
  assert (X : forall f,
     en_must (entry_of dflt user c f) && negb (is_some (g (en_name (entry_of dflt user c f)))) = true
     <-> is_checked dflt user c f /\ g (f_ident f) = None).
  { intros f. rewrite andb_true_iff, checked_entry_iff. cbn [entry_of en_name].
    destruct (g (f_ident f)); cbn; intuition discriminate. }
  split.
  - intros H. destruct (find _ _) as [f|] eqn:F; [|discriminate]. cbn in H. injection H as <-.
    apply find_split in F as (a & b & E & Hp & Ha). apply X in Hp. exists a, f, b. repeat split; try tauto.
    intros f' Hf' Q. apply X in Q. rewrite (Ha f' Hf') in Q. discriminate.
  - intros (a & f & b & E & <- & Hp & Ha). rewrite E.
    rewrite (find_app_none _ _ a f b); [reflexivity| |].
    + intros f' Hf'. apply not_true_iff_false. intros Q. apply (Ha f' Hf'). now apply X.
    + now apply X.
Qed.
Lemma missing_nothing : forall g, (forall f, In f (builder_input c) -> must f -> g (f_ident f) <> None) ->
  first_missing es g = None.
Proof.
  intros g H. unfold first_missing, entries. rewrite find_map. destruct (find _ _) as [f|] eqn:F; [|reflexivity].
  apply find_some in F as [F P]. apply andb_true_iff in P as [P Q]. apply must_entry in P.
  specialize (H f F P). cbn in Q. destruct (g (f_ident f)); [discriminate|contradiction].
Qed.
Lemma missing_nothing_iff : no_named_off c -> forall g, first_missing es g = None <->
  (forall f, In f (builder_input c) -> must f -> g (f_ident f) <> None).
Proof.
  intros Ho g. split; [|apply missing_nothing]. intros H f Hf Hm E.
  unfold first_missing, entries in H. destruct (find _ _) eqn:F; [discriminate|].
  pose proof (find_none _ _ F (entry_of dflt user c f) (in_map _ _ _ Hf)) as N. cbn in N.
  rewrite (Ho f Hf), Hm, E in N. discriminate.
Qed.
Lemma contents_some : forall g,
  (forall f, In f (builder_input c) -> own_content dflt user c f = None -> g (f_ident f) <> None) ->
  exists k, contents es g = Some k.
Proof.
  intros g. unfold entries. induction (builder_input c) as [|f l IH]; intros H; cbn; [eauto|].
  destruct IH as [k Hk]; [intros f' Hf'; apply H; now right|]. rewrite Hk.
  unfold entry_content; cbn. destruct (g (f_ident f)) eqn:G; [eauto|].
  destruct (own_content dflt user c f) eqn:O; [eauto|]. destruct (H f (or_introl eq_refl) O G).
Qed.
Lemma contents_none : forall g, contents es g = None ->
  exists f, In f (builder_input c) /\ own_content dflt user c f = None /\ g (f_ident f) = None.
Proof.
  intros g. unfold entries. induction (builder_input c) as [|f l IH]; cbn; intros H; [discriminate|].
  unfold entry_content in H; cbn in H. destruct (g (f_ident f)) eqn:G.
  - destruct (contents _ g); [discriminate|]. destruct (IH eq_refl) as (f' & ? & ?). eauto.
  - destruct (own_content dflt user c f) eqn:O; [|eauto].
    destruct (contents _ g); [discriminate|]. destruct (IH eq_refl) as (f' & ? & ?). eauto.
Qed.
Lemma contents_fields : forall g k, contents es g = Some k ->
  Forall2 (fun f p => fst p = f_ident f /\
    match g (f_ident f) with Some n => snd p = Some n | None => own_content dflt user c f = Some (snd p) end)
    (builder_input c) k.
Proof.
  intros g. unfold entries. induction (builder_input c) as [|f l IH]; cbn; intros k H.
  - injection H as <-. constructor.
  - unfold entry_content in H; cbn in H.
    destruct (match g (f_ident f) with Some n => Some (Some n) | None => own_content dflt user c f end) eqn:E; [|discriminate].
    destruct (contents _ g) eqn:K; [|discriminate]. injection H as <-. constructor; [|auto].
    cbn. split; [reflexivity|]. destruct (g (f_ident f)); congruence.
Qed.
Lemma all_set : forall g, first_missing es g = None /\ contents es g <> None <->
  (forall f, In f (builder_input c) -> must f -> g (f_ident f) <> None).
Proof.
  intros g. split.
  - intros [M K] f Hf Hm E. unfold must_be_set in Hm. apply orb_true_iff in Hm as [Hr|Hm].
    + apply (missing_none dflt user c g M f Hf Hr E).
    + apply andb_true_iff in Hm as [_ Ho].
      destruct (own_content dflt user c f) eqn:O; [discriminate|]. apply K. clear -Hf E O.
      unfold entries. induction (builder_input c) as [|f' l IH]; [destruct Hf|]. cbn.
      destruct Hf as [->|Hf].
      * unfold entry_content; cbn. now rewrite E, O.
      * rewrite (IH Hf). destruct (entry_content _ _); reflexivity.
  - intros H. split; [now apply missing_nothing|].
    destruct (contents_some g) as [k ->]; [|discriminate]. intros f Hf O. apply H; auto.
    unfold must_be_set. rewrite O, (required_setter_own f O). apply orb_true_r.
Qed.
Lemma no_off_contents : no_named_off c -> forall g, first_missing es g = None -> exists k, contents es g = Some k.
Proof.
  intros Ho g H. apply contents_some. intros f Hf O. eapply (proj1 (missing_nothing_iff Ho g) H f Hf).
  unfold must_be_set. rewrite O, (required_setter_own f O). apply orb_true_r.
Qed.

Hypothesis Hnd : NoDup (map f_ident (all_fields c)).
Hypothesis Hgen : generated c.

Lemma new_shows : shows_form new_builder blank.
Proof. intros x. reflexivity. Qed.
Lemma blank_by_setters : filled_by_setters c blank.
Proof. intros f _ _. reflexivity. Qed.
Lemma histories_refine : forall l rs g', spec_forms es l blank = Some (rs, g') ->
  exists qs b', run l new_builder = Some (qs, b') /\ Forall2 (answers c post) qs rs /\ shows_form b' g'.
Proof.
  intros l rs g' H.
  destruct (forms_run dflt user c post Hnd Hgen l _ _ _ _ new_shows blank_by_setters H) as (qs & b' & ? & ? & ? & ?).
  eauto.
Qed.
Lemma run_spec : forall l b g qs b', shows_form b g -> filled_by_setters c g -> run l b = Some (qs, b') ->
  exists rs g', spec_forms es l g = Some (rs, g') /\ Forall2 (answers c post) qs rs /\ shows_form b' g' /\
    filled_by_setters c g'.
Proof.
  intros l b g qs b' Hb Hs H. destruct (spec_forms es l g) as [[rs g']|] eqn:E.
  - destruct (forms_run dflt user c post Hnd Hgen l b g rs g' Hb Hs E) as (qs' & b'' & R & F & S & S').
    rewrite R in H. injection H as <- <-. exists rs, g'. auto.
  - rewrite (forms_stuck l b g E) in H. discriminate.
Qed.
(** A history and one more build(). *)
Lemma last_build : forall l rs r ps b', run (l ++ [BBuild]) new_builder = Some ((rs ++ [(r, ps)])%list, b') ->
  exists b1 g, run l new_builder = Some (rs, b1) /\ shows_form b1 g /\ filled_by_setters c g /\
    build dflt user c post b1 = (r, b', ps) /\
    answers c post (r, ps) (spec_build es g) /\ shows_form b' (form_after es g).
Proof.
  intros l rs r ps b' H. apply run_app in H as (rs1 & b1 & rs2 & H1 & H2 & E). cbn in H2.
  destruct (run_spec l _ _ _ _ new_shows blank_by_setters H1) as (as1 & g & _ & _ & S & S').
  destruct (build dflt user c post b1) as [[r0 b2] ps0] eqn:B. injection H2 as <- <-.
  apply app_inj_tail in E as [<- E]. injection E as <- <-.
  destruct (build_runs dflt user c post Hnd Hgen b1 g S S') as (r1 & b3 & ps1 & B' & A & S3).
  rewrite B in B'. injection B' as <- <- <-. exists b1, g. auto 8.
Qed.
(** Setters and one build(). *)
Lemma one_build : forall l r ps b', run (sets l ++ [BBuild]) new_builder = Some ([(r, ps)], b') ->
  exists g, (forall x, g x = last_given l x) /\ answers c post (r, ps) (spec_build es g) /\
    forallb (fun p => can_set es (fst p)) l = true.
Proof.
  intros l r ps b' H.
  destruct (run_spec _ _ _ _ _ new_shows blank_by_setters H) as (rs & g' & E & F & S & _).
  pose proof (forms_sets_inv _ _ _ _ _ E) as C. rewrite (forms_sets _ _ _ _ C) in E. cbn in E. injection E as <- <-.
  exists (filled blank l). split.
  - intros x. rewrite filled_is. destruct (last_given l x); reflexivity.
  - inversion F; subst. auto.
Qed.

Lemma success_iff : has_post_build c = false -> forall l r ps b',
  run (sets l ++ [BBuild]) new_builder = Some ([(r, ps)], b') ->
  ((exists o, r = BDone o) <->
   (forall f, In f (builder_input c) -> must f -> In (f_ident f) (map fst l))).
Proof.
  intros Hp l r ps b' H. destruct (one_build l r ps b' H) as (g & G & A & _).
  assert (X : (forall f, In f (builder_input c) -> must f -> In (f_ident f) (map fst l)) <->
              first_missing es g = None /\ contents es g <> None).
  { rewrite all_set. split; intros Q f Hf Hm; specialize (Q f Hf Hm);
    [rewrite G|rewrite G in Q]; now apply last_given_some. }
  rewrite X. unfold spec_build in A. destruct (first_missing es g) eqn:M.
  - cbn in A. injection A as -> ->. split; [intros [? Q]|intros [Q _]]; discriminate Q.
  - destruct (contents es g) as [k|].
    + destruct A as (o & _ & A). rewrite (finish_plain Hp) in A. injection A as -> ->.
      split; [|eauto]. intros _. split; [reflexivity|discriminate].
    + injection A as -> ->. split; [intros [? Q]; discriminate|intros [_ Q]; contradiction].
Qed.
Lemma checked_missing : forall l r ps b' x,
  run (sets l ++ [BBuild]) new_builder = Some ([(r, ps)], b') ->
  (r = BMissing x <-> first_field c (fun f => is_checked dflt user c f /\ ~ In (f_ident f) (map fst l)) x).
Proof.
  intros l r ps b' x H. destruct (one_build l r ps b' H) as (g & G & A & _).
  assert (X : first_field c (fun f => is_checked dflt user c f /\ ~ In (f_ident f) (map fst l)) x <->
              first_missing es g = Some x).
  { rewrite (missing_first g x). unfold first_field.
    split; intros (a & f & b & ? & ? & (? & ?) & Q); exists a, f, b; repeat split; auto;
      try (rewrite G; now apply last_given_in); try (apply last_given_in; now rewrite <- G);
      intros f' Hf' (? & ?); apply (Q f' Hf'); split; auto;
      try (rewrite G; now apply last_given_in); try (apply last_given_in; now rewrite <- G). }
  rewrite X. unfold spec_build in A. destruct (first_missing es g) eqn:M.
  - cbn in A. injection A as -> ->. split; congruence.
  - split; [|discriminate]. intros ->. exfalso. destruct (contents es g).
    + destruct A as (o & _ & A). apply (finish_never_missing o x). now rewrite <- A.
    + discriminate A.
Qed.
Lemma first_field_ext : forall (p q : field -> Prop) x, (forall f, In f (builder_input c) -> (p f <-> q f)) ->
  first_field c p x -> first_field c q x.
Proof.
  intros p q x E (a & f & b & Eb & Hx & Hp & Ha). exists a, f, b.
  assert (I : forall f', In f' (a ++ f :: b) -> In f' (builder_input c)) by (rewrite Eb; auto).
  repeat split; auto.
  - apply E; auto. apply I, in_or_app. right. now left.
  - intros f' Hf' Q. apply (Ha f' Hf'), E; auto. apply I, in_or_app. now left.
Qed.
Lemma missing_named : no_named_off c -> forall l r ps b' x,
  run (sets l ++ [BBuild]) new_builder = Some ([(r, ps)], b') ->
  (r = BMissing x <-> first_field c (fun f => must f /\ ~ In (f_ident f) (map fst l)) x).
Proof.
  intros Ho l r ps b' x H. rewrite (checked_missing l r ps b' x H).
  split; apply first_field_ext; intros f Hf; rewrite (checked_must Ho f Hf); reflexivity.
Qed.
Lemma object_fields : forall g k o, contents es g = Some k -> stored_as c k o ->
  Forall2 (fun f q => fst q = f_ident f /\ exists t k, field_type c f = GOk t /\ rep t k = Some (snd q) /\
    match g (f_ident f) with Some n => k = Some n | None => own_content dflt user c f = Some k end)
    (builder_input c) o.
Proof.
  intros g k o K S. pose proof (contents_fields g k K) as F.
  assert (I : incl (builder_input c) (builder_input c)) by (intros f Hf; exact Hf).
  clear K. revert I F o S. generalize (builder_input c) at 1 3 4 as bi. intros bi I F. revert I.
  induction F as [|f p l k' [Hf Hc] F IH]; intros I o S; inversion S as [|? q ? o' [Hq Hr] S']; subst;
  constructor.
  - split; [congruence|]. destruct Hr as (f' & t & Hin & Hid & Ht & Hr).
    assert (f' = f).
    { apply (CodegenStruct.ident_inj (builder_input c)).
      - now apply input_nodup.
      - exact Hin.
      - apply I. now left.
      - congruence. }
    subst f'. exists t, (snd p). auto.
  - apply IH; auto. intros f' Hf'. apply I. now right.
Qed.
Lemma fields_hold_last : has_post_build c = false -> forall l o ps b',
  run (sets l ++ [BBuild]) new_builder = Some ([(BDone o, ps)], b') ->
  Forall2 (fun f q => fst q = f_ident f /\ exists t k, field_type c f = GOk t /\ rep t k = Some (snd q) /\
    match last_given l (f_ident f) with Some n => k = Some n | None => own_content dflt user c f = Some k end)
    (builder_input c) o.
Proof.
  intros Hp l o ps b' H. destruct (one_build l _ ps b' H) as (g & G & A & _).
  unfold spec_build in A. destruct (first_missing es g); [discriminate A|].
  destruct (contents es g) as [k|] eqn:K; [|discriminate A]. destruct A as (o' & S & A).
  rewrite (finish_plain Hp) in A. injection A as <- ->. pose proof (object_fields g k o K S) as F.
  clear -F G. induction F as [|f q l1 l2 (E & t & k' & Ht & Hr & Hm) F IH]; constructor; auto.
  split; [exact E|]. exists t, k'. rewrite <- G. auto.
Qed.

Lemma panic_means_post : no_named_off c -> forall p, build_compiles c p = true ->
  forall l qs b', run l new_builder = Some (qs, b') -> forall r ps, In (r, ps) qs ->
  r <> BStuck /\ (r = BPanicked -> has_post_build c = true /\ exists o, ps = [o] /\ forall o', post o <> BOk o').
Proof.
  intros Ho p Hc l qs b' H r ps I.
  destruct (run_spec _ _ _ _ _ new_shows blank_by_setters H) as (rs & g' & E & F & _ & _).
  assert (B : ~ In Broken rs).
  { clear -E Ho Hnd. revert E. generalize blank as g, rs. induction l as [|[x n|] l IH]; intros g rs0 E; cbn in E.
    - injection E as <- <-. intros [].
    - destruct (can_set es x); [|discriminate]. eapply IH, E.
    - destruct (spec_forms es l (form_after es g)) as [[rs' g1]|] eqn:E1; [|discriminate]. injection E as <- <-.
      intros [Q|Q]; [|eapply IH; eauto]. unfold spec_build in Q. destruct (first_missing es g) eqn:M; [discriminate|].
      destruct (no_off_contents Ho g M) as [k K]. rewrite K in Q. discriminate. }
  assert (X : exists a, In a rs /\ answers c post (r, ps) a).
  { clear -F I. induction F as [|q a qs rs A F IH]; [destruct I|]. destruct I as [->|I].
    - exists a. split; [now left|exact A].
    - destruct (IH I) as (a' & ? & ?). exists a'. split; [now right|auto]. }
  destruct X as (a & Ia & A). destruct a as [x|k|]; [| |contradiction].
  - cbn in A. injection A as -> ->. split; discriminate.
  - destruct A as (o & _ & A). split.
    + intros ->. apply (finish_never_stuck p Hc o). now rewrite <- A.
    + intros ->. destruct (has_post_build c) eqn:P.
      * rewrite (finish_posted p Hc P) in A. injection A as A ->. split; [reflexivity|]. exists o. split; [reflexivity|].
        intros o' Q. rewrite Q in A. discriminate.
      * rewrite (finish_plain P) in A. discriminate.
Qed.
Lemma panics_iff : has_post_build c = false -> forall l r ps b',
  run (sets l ++ [BBuild]) new_builder = Some ([(r, ps)], b') ->
  (r = BPanicked <->
   (forall f, In f (builder_input c) -> is_checked dflt user c f -> In (f_ident f) (map fst l)) /\
   exists f, In f (builder_input c) /\ own_content dflt user c f = None /\ ~ In (f_ident f) (map fst l)).
Proof.
  intros Hp l r ps b' H. destruct (one_build l r ps b' H) as (g & G & A & _).
  assert (X : first_missing es g = None <->
    (forall f, In f (builder_input c) -> is_checked dflt user c f -> In (f_ident f) (map fst l))).
  { unfold first_missing, entries. rewrite find_map. split.
    - intros M f Hf D. apply last_given_some. rewrite <- G. intros Q. apply checked_entry_iff in D.
      destruct (find _ _) eqn:F; [discriminate|]. pose proof (find_none _ _ F f Hf) as N. cbv beta in N.
      rewrite D in N. cbn in N. rewrite Q in N. discriminate.
    - intros Q. destruct (find _ _) as [f|] eqn:F; [|reflexivity]. apply find_some in F as [F P].
      apply andb_true_iff in P as [P1 P2]. apply checked_entry_iff in P1. cbn in P2.
      pose proof (Q f F P1) as N.
      apply last_given_some in N. rewrite <- G in N. destruct (g (f_ident f)); [discriminate|contradiction]. }
  assert (Y : contents es g = None <->
    exists f, In f (builder_input c) /\ own_content dflt user c f = None /\ ~ In (f_ident f) (map fst l)).
  { split.
    - intros K. destruct (contents_none g K) as (f & ? & ? & Q). exists f. repeat split; auto.
      apply last_given_in. now rewrite <- G.
    - intros (f & Hf & O & Q). apply last_given_in in Q. rewrite <- G in Q.
      destruct (contents es g) as [k|] eqn:K; [|reflexivity]. exfalso.
      pose proof (contents_fields g k K) as F. clear -F Hf O Q. induction F as [|f' p l1 l2 [_ M] F IH]; [destruct Hf|].
      destruct Hf as [->|Hf]; [|auto]. rewrite Q, O in M. discriminate. }
  rewrite <- X, <- Y. unfold spec_build in A. destruct (first_missing es g).
  - cbn in A. injection A as -> ->. split; [discriminate|intros [Q _]; discriminate].
  - destruct (contents es g).
    + destruct A as (o & _ & A). rewrite (finish_plain Hp) in A. injection A as -> ->.
      split; [discriminate|intros [_ Q]; discriminate].
    + cbn in A. injection A as -> ->. tauto.
Qed.

Lemma can_set_field : forall f, In f (builder_input c) -> has_setter c f = true -> can_set es (f_ident f) = true.
Proof.
  intros f Hf Hs. unfold can_set. apply existsb_exists. exists (entry_of dflt user c f).
  split; [unfold entries; now apply in_map|]. cbn. now rewrite String.eqb_refl, Hs.
Qed.
Lemma succeeds_if : has_post_build c = false ->
  (forall f, In f (builder_input c) -> is_builder_required c f = true -> has_setter c f = true) ->
  exists l o b', run (sets l ++ [BBuild]) new_builder = Some ([(BDone o, [])], b').
Proof.
  intros Hp H. set (l := map (fun f => (f_ident f, 0)) (filter (has_setter c) (builder_input c))).
  assert (Hl : forall f, In f (builder_input c) -> has_setter c f = true -> last_given l (f_ident f) <> None).
  { intros f Hf Hs. apply last_given_some. unfold l. rewrite map_map. cbn. apply in_map. now apply filter_In. }
  assert (C : forallb (fun p => can_set es (fst p)) l = true).
  { apply forallb_forall. intros p Hpp. unfold l in Hpp. apply in_map_iff in Hpp as (f & <- & Hf).
    apply filter_In in Hf as [Hf Hs]. cbn. now apply can_set_field. }
  assert (G : forall x, filled blank l x = last_given l x).
  { intros x. rewrite filled_is. destruct (last_given l x); reflexivity. }
  assert (M : first_missing es (filled blank l) = None).
  { apply missing_nothing. intros f Hf Hm. rewrite G. apply Hl; auto. unfold must_be_set in Hm.
    apply orb_true_iff in Hm as [Hm|Hm]; [auto|]. now apply andb_true_iff in Hm as [Hm _]. }
  destruct (contents_some (filled blank l)) as [k K].
  { intros f Hf O. rewrite G. apply Hl; auto. now apply required_setter_own. }
  assert (S : spec_forms es (sets l ++ [BBuild]) blank = Some ([Handed k], form_after es (filled blank l))).
  { rewrite (forms_sets _ _ _ _ C). cbn. unfold spec_build. now rewrite M, K. }
  destruct (histories_refine _ _ _ S) as (qs & b' & R & F & _).
  inversion F as [|q ? ? ? A F']; subst. inversion F'; subst. destruct A as (o & _ & ->).
  rewrite (finish_plain Hp) in R. eauto.
Qed.
Lemma never_succeeds : forall f, In f (builder_input c) -> is_builder_required c f = true -> has_setter c f = false ->
  forall l qs b', run l new_builder = Some (qs, b') -> forall r ps, In (r, ps) qs -> exists x, r = BMissing x.
Proof.
  intros f Hf Hr Hs l. generalize new_shows blank_by_setters. generalize blank as g, new_builder as b.
  induction l as [|[x n|] l IH]; intros g b Hb Hg qs b' H r ps I; cbn in H.
  - injection H as <- <-. destruct I.
  - destruct (can_set es x) eqn:C; [|now rewrite no_setter_stuck in H].
    destruct (setter_runs dflt user c x n b g Hb C) as (b1 & E & Hb1). rewrite E in H.
    apply (IH _ _ Hb1 (fill_by_setters dflt user c Hnd g x n Hg C) _ _ H _ _ I).
  - destruct (build_runs dflt user c post Hnd Hgen b g Hb Hg) as (r1 & b1 & ps1 & B & A & Hb1). rewrite B in H.
    destruct (run l b1) as [[rs' b2]|] eqn:R; [|discriminate]. injection H as <- <-.
    destruct I as [I|I].
    + injection I as -> ->. unfold spec_build in A. destruct (first_missing es g) as [y|] eqn:M.
      * cbn in A. injection A as -> ->. eauto.
      * exfalso. apply (missing_none dflt user c g M f Hf Hr). now apply Hg.
    + apply (IH _ _ Hb1 (after_by_setters dflt user c g Hg) _ _ R _ _ I).
Qed.

Lemma form_other : forall l qs b', run l new_builder = Some (qs, b') ->
  forall x, ~ In x (map f_ident (builder_input c)) -> b' x = VNone.
Proof.
  intros l qs b' H x Hx. destruct (run_spec _ _ _ _ _ new_shows blank_by_setters H) as (rs & g' & E & _ & S & _).
  rewrite S. assert (g' x = None); [|now rewrite H0].
  clear -E Hx Hnd. assert (B : blank x = None) by reflexivity. revert B E. generalize blank as g, rs.
  induction l as [|[y n|] l IH]; intros g rs0 B E; cbn in E.
  - injection E as <- <-. exact B.
  - destruct (can_set es y) eqn:C; [|discriminate]. eapply IH, E. unfold fill.
    destruct (String.eqb_spec y x) as [->|_]; [|exact B]. exfalso. apply Hx.
    unfold can_set in C. apply existsb_exists in C as (e & He & C). unfold entries in He.
    apply in_map_iff in He as (f & <- & Hf). apply andb_true_iff in C as [C _]. apply String.eqb_eq in C.
    cbn in C. subst x. now apply in_map.
  - destruct (spec_forms es l (form_after es g)) as [[rs' g1]|] eqn:E1; [|discriminate]. injection E as <- <-.
    eapply IH, E1. unfold form_after. destruct (spec_build es g); [exact B| |];
    (destruct (existsb _ _); [reflexivity|exact B]).
Qed.
Lemma drains : forall l rs r ps b', run (l ++ [BBuild]) new_builder = Some ((rs ++ [(r, ps)])%list, b') ->
  (exists o, r = BDone o) \/ ps <> [] -> b' ~ new_builder.
Proof.
  intros l rs r ps b' H D x.
  destruct (in_dec string_dec x (map f_ident (builder_input c))) as [I|I]; [|eapply form_other; eauto].
  destruct (last_build l rs r ps b' H) as (b1 & g & _ & Hb & _ & _ & A & S).
  rewrite S. unfold form_after. unfold answers in A. unfold spec_build in *. destruct (first_missing es g).
  - injection A as -> ->. destruct D as [[o D]|D]; [discriminate|congruence].
  - destruct (contents es g) as [k|] eqn:K.
    + rewrite (taken_all es g k K). destruct (existsb _ es) eqn:X; [reflexivity|]. exfalso.
      rewrite <- not_true_iff_false in X. apply X. apply existsb_exists.
      apply in_map_iff in I as (f & <- & Hf). exists (entry_of dflt user c f).
      split; [unfold entries; now apply in_map|]. cbn. apply String.eqb_refl.
    + injection A as -> ->. destruct D as [[o D]|D]; [discriminate|congruence].
Qed.

Lemma like_new : forall l rs r ps b', run (l ++ [BBuild]) new_builder = Some ((rs ++ [(r, ps)])%list, b') ->
  (exists o, r = BDone o) \/ ps <> [] -> forall l2 rs2 b2, run l2 b' = Some (rs2, b2) ->
  exists b3, run l2 new_builder = Some (rs2, b3) /\ b2 ~ b3.
Proof. intros l rs r ps b' H D l2 rs2 b2 R. eapply run_ext; [|exact R]. eapply drains; eauto. Qed.
Lemma second_build : forall l rs o ps r2 ps2 b',
  run (l ++ [BBuild; BBuild]) new_builder = Some ((rs ++ [(BDone o, ps); (r2, ps2)])%list, b') ->
  exists b3, run (sets [] ++ [BBuild]) new_builder = Some ([(r2, ps2)], b3).
Proof.
  intros l rs o ps r2 ps2 b' H. change [BBuild; BBuild] with ([BBuild] ++ [BBuild])%list in H.
  rewrite app_assoc in H. apply run_app in H as (rs1 & b1 & rs2 & H1 & H2 & E).
  cbn in H2. destruct (build dflt user c post b1) as [[r3 b3] ps3] eqn:B. injection H2 as <- <-.
  change [(BDone o, ps); (r2, ps2)] with ([(BDone o, ps)] ++ [(r2, ps2)])%list in E. rewrite app_assoc in E.
  apply app_inj_tail in E as [<- E]. injection E as -> ->.
  destruct (like_new l rs (BDone o) ps b1 H1 (or_introl (ex_intro _ o eq_refl)) [BBuild] [(r3, ps3)] b3) as (b4 & R & _).
  { cbn. now rewrite B. }
  eauto.
Qed.

Lemma post_build_once : forall p, build_compiles c p = true -> has_post_build c = true ->
  forall l rs r ps b', run (l ++ [BBuild]) new_builder = Some ((rs ++ [(r, ps)])%list, b') ->
  (exists x, r = BMissing x /\ ps = []) \/
  (r = BPanicked /\ ps = [] /\ ~ no_named_off c) \/
  (exists o, ps = [o] /\ map fst o = map f_ident (builder_input c) /\
     r = match post o with
         | BOk o' => BDone o'
         | BErr e => if p then BFailed e else BPanicked
         | BPanic => BPanicked
         end).
Proof.
  intros p Hc Hp l rs r ps b' H. destruct (last_build l rs r ps b' H) as (b1 & g & _ & _ & _ & _ & A & _).
  unfold spec_build in A. destruct (first_missing es g) eqn:M.
  - left. injection A as -> ->. eauto.
  - right. destruct (contents es g) as [k|] eqn:K.
    + right. destruct A as (o & S & A).
      rewrite (finish_posted p Hc Hp) in A. injection A as -> ->. exists o. repeat split.
      pose proof (object_fields g k o K S) as F. clear -F. induction F as [|f q l1 l2 [E _] F IH]; cbn; congruence.
    + left. injection A as -> ->. repeat split. intros Ho. destruct (no_off_contents Ho g M). congruence.
Qed.
Lemma post_build_called : forall p, build_compiles c p = true -> has_post_build c = true ->
  forall l r ps b', run (sets l ++ [BBuild]) new_builder = Some ([(r, ps)], b') ->
  (List.length ps = 1 <-> (forall f, In f (builder_input c) -> must f -> In (f_ident f) (map fst l))) /\
  (forall o, ps = [o] -> Forall2 (fun f q => fst q = f_ident f /\ exists t k, field_type c f = GOk t /\
     rep t k = Some (snd q) /\
     match last_given l (f_ident f) with Some n => k = Some n | None => own_content dflt user c f = Some k end)
    (builder_input c) o).
Proof.
  intros p Hc Hp l r ps b' H. destruct (one_build l r ps b' H) as (g & G & A & _).
  assert (X : (forall f, In f (builder_input c) -> must f -> In (f_ident f) (map fst l)) <->
              first_missing es g = None /\ contents es g <> None).
  { rewrite all_set. split; intros Q f Hf Hm; specialize (Q f Hf Hm);
    [rewrite G|rewrite G in Q]; now apply last_given_some. }
  rewrite X. unfold spec_build in A. destruct (first_missing es g) eqn:M.
  - injection A as -> ->. split; [split; [discriminate|intros [Q _]; discriminate]|discriminate].
  - destruct (contents es g) as [k|] eqn:K.
    + destruct A as (o & S & A).
      rewrite (finish_posted p Hc Hp) in A. injection A as -> ->.
      split; [split; [intros _; split; [reflexivity|discriminate]|reflexivity]|].
      intros o' E. injection E as <-. pose proof (object_fields g k o K S) as F.
      clear -F G. induction F as [|f q l1 l2 (E & t & k' & Ht & Hr & Hm) F IH]; constructor; auto.
      split; [exact E|]. exists t, k'. rewrite <- G. auto.
    + injection A as -> ->. split; [split; [discriminate|intros [_ Q]; contradiction]|discriminate].
Qed.
Lemma no_post_build : has_post_build c = false -> forall l qs b', run l new_builder = Some (qs, b') ->
  forall r ps, In (r, ps) qs -> ps = [].
Proof.
  intros Hp l qs b' H r ps I.
  destruct (run_spec _ _ _ _ _ new_shows blank_by_setters H) as (rs & g' & _ & F & _ & _).
  clear -F I Hp Hnd. induction F as [|q a qs rs A F IH]; [destruct I|]. destruct I as [->|I]; [|auto].
  destruct a; cbn in A; try congruence. destruct A as (o & _ & A). rewrite (finish_plain Hp) in A. congruence.
Qed.
End Facts.
