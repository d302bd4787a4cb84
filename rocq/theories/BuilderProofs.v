(** The builder type does what BuilderSpec.v says. *)
From Coq Require Import List Bool String Arith Lia.
From Verif Require Import ProxyTypes ArgsModel CtxModel RustAst CommonGen PlainGen SyncGen StructGen
  CodegenSpec CodegenProofs CodegenStruct RustSem FieldSpec FieldRun FieldProofs FieldSeq FieldStruct
  BuilderModel BuilderSpec.
Import ListNotations.
Open Scope string_scope.

Section One.
Variable dflt : nat.
Variable user : string -> nat.
Notation run t e o := (run_value idle false false dflt user t e (opt_val o)).

(** One field, given what is known about it. *)
Definition g_setter (g : fcfg) : bool := g_builder g || g_forced g.
Definition g_own (g : fcfg) : option (option nat) :=
  match g_default g with
  | Some d => Some (Some (user (fst d)))
  | None => if g_lazy g || g_optional g then Some None
            else if g_has_default g || negb (g_setter g) then Some (Some dflt) else None
  end.
Definition value_claim (g : fcfg) (t : ty) (e : expr) : Prop := forall o,
  (g_setter g = false -> o = None) -> (g_required g = true -> o <> None) ->
  match (match o with Some n => Some (Some n) | None => g_own g end) with
  | None => run t e o = inl None
  | Some k => exists v, rep t k = Some v /\ run t e o = inl (Some (v, VNone))
  end.

Ltac cases_o o :=
  let o := fresh "o" in
  intros o Hs Hr; destruct o as [o|];
  try (specialize (Hs eq_refl); discriminate Hs);
  try (destruct (Hr eq_refl); reflexivity);
  vm_compute; try reflexivity; eexists; (split; reflexivity).
Lemma plain_value_runs : forall g e, (g_default g <> None -> g_has_default g = true) ->
  plain_builder_value g = GOk e -> value_claim g (plain_type g) e.
Proof.
  intros g e Hd H. destruct g. unfold value_claim, plain_builder_value, value_for_set, plain_default_wrap, field_default_value,
    plain_value_wrap, g_own, g_setter, plain_type in *. cbn in *.
  destruct g_default as [[d []]|]; [rewrite Hd in * by discriminate|rewrite Hd in * by discriminate|];
  clear Hd; cbn in *;
  destruct g_lazy, g_optional, g_inner_mut; cbn in *;
  destruct g_forced, g_builder; cbn in *; try destruct g_required; cbn in *;
  try destruct g_has_default; cbn in *;
  try discriminate H; injection H as <-; cases_o o.
Qed.
Lemma sync_value_runs : forall g t e, (g_default g <> None -> g_has_default g = true) -> g_skip g = false ->
  sync_type g = GOk t -> sync_builder_value g = GOk e -> value_claim g t e.
Proof.
  intros g t e Hd Hk Ht H. destruct g. unfold value_claim, sync_builder_value, value_for_set, sync_default_wrap,
    field_default_value, sync_value_wrap, g_own, g_setter, sync_type, wrap_builder, wrapper_type_ok, maybe_locked,
    maybe_optional in *. cbn in *. subst g_skip.
  destruct g_fallible; [destruct g_error_known; try discriminate Ht|]; cbn in *; injection Ht as <-;
  (destruct g_default as [[d []]|]; [rewrite Hd in * by discriminate|rewrite Hd in * by discriminate|];
  clear Hd; cbn in *;
  destruct g_lazy, g_optional, g_lock; cbn in *;
  destruct g_forced, g_builder; cbn in *; try destruct g_required; cbn in *;
  try destruct g_has_default; cbn in *; try destruct g_async;
  try discriminate H; injection H as <-; cases_o o).
Qed.

Variable c : sctx.
Lemma default_coherent : forall f, default_value f <> None -> f_has_default_value f = true.
Proof. intros f. unfold default_value. destruct (f_has_default_value f); congruence. Qed.
Lemma field_value_runs : forall f t e o, f_skip f = false -> field_type c f = GOk t ->
  field_build_value c f = GOk e ->
  (has_setter c f = false -> o = None) -> (is_builder_required c f = true -> o <> None) ->
  match (match o with Some n => Some (Some n) | None => own_content dflt user c f end) with
  | None => run t e o = inl None
  | Some k => exists v, rep t k = Some v /\ run t e o = inl (Some (v, VNone))
  end.
Proof.
  intros f t e o Hk Ht He. unfold field_type, field_build_value in *. destruct (is_sync c f).
  - exact (sync_value_runs (cfg_of c f) t e (default_coherent f) Hk Ht He o).
  - injection Ht as <-. exact (plain_value_runs (cfg_of c f) e (default_coherent f) He o).
Qed.

(** The whole literal. *)
Notation ents := (map (entry_of dflt user c)).
(** Setters are the only way to fill in. *)
Definition filled_by_setters (g : form) : Prop :=
  forall f, In f (builder_input c) -> has_setter c f = false -> g (f_ident f) = None.
Notation drained l g := (fun x => existsb (fun e => String.eqb x (en_name e)) (taken (ents l) g)).
Lemma make_runs : generated c -> forall l b g, incl l (builder_input c) -> NoDup (map f_ident l) ->
  filled_by_setters g ->
  (forall f, In f l -> is_builder_required c f = true -> g (f_ident f) <> None) ->
  (forall f, In f l -> b (f_ident f) = opt_val (g (f_ident f))) ->
  exists b', (forall x, b' x = if drained l g x then VNone else b x) /\
  match contents (ents l) g with
  | Some k => exists o, make dflt user c l b = Made o b' /\ stored_as c k o
  | None => make dflt user c l b = MadePanic b'
  end.
Proof.
  intros Hgen. induction l as [|f l IH]; intros b g Hin Hnd Hset Hreq Hb.
  - cbn. exists b. split; [reflexivity|]. exists []. repeat split. constructor.
  - cbn [map contents make taken]. assert (Hf : In f (builder_input c)) by (apply Hin; left; reflexivity).
    destruct (Hgen f Hf) as (t & e & Ht & He). rewrite Ht, He.
    assert (Hk : f_skip f = false).
    { apply filter_In in Hf as [_ Hf]. unfold f_is_skipped in Hf. destruct (f_skip f); [discriminate|reflexivity]. }
    pose proof (field_value_runs f t e (g (f_ident f)) Hk Ht He (Hset f Hf) (Hreq f (or_introl eq_refl))) as R.
    rewrite (Hb f (or_introl eq_refl)).
    replace (entry_content g (entry_of dflt user c f))
      with (match g (f_ident f) with Some n => Some (Some n) | None => own_content dflt user c f end)
      by reflexivity.
    cbn [map] in Hnd. inversion Hnd as [|? ? Hni Hnd']; subst.
    destruct (match g (f_ident f) with Some n => Some (Some n) | None => own_content dflt user c f end) as [k|].
    + destruct R as (v & Hv & ->).
      assert (Hb' : forall f', In f' l -> bset b (f_ident f) VNone (f_ident f') = opt_val (g (f_ident f'))).
      { intros f' Hf'. unfold bset. destruct (String.eqb_spec (f_ident f) (f_ident f')) as [E|_].
        - destruct Hni. rewrite E. now apply in_map.
        - apply Hb. now right. }
      destruct (IH (bset b (f_ident f) VNone) g (fun x H => Hin x (or_intror H)) Hnd'
        Hset (fun x H => Hreq x (or_intror H)) Hb') as (b' & Hb2 & IH').
      exists b'. split.
      { intros x. rewrite Hb2. cbn [existsb entry_of en_name]. unfold bset. rewrite (String.eqb_sym x (f_ident f)).
        destruct (existsb _ _), (String.eqb (f_ident f) x); reflexivity. }
      destruct (contents (ents l) g) as [ks|].
      * destruct IH' as (o & -> & Hst). exists ((f_ident f, v) :: o).
        split; [reflexivity|]. constructor; [|exact Hst]. cbn. split; [reflexivity|]. exists f, t. auto.
      * rewrite IH'. reflexivity.
    + rewrite R. exists b. split; [|reflexivity]. reflexivity.
Qed.

(** The checks. *)
Lemma checked_entry : forall f, value_required (cfg_of c f) = en_must (entry_of dflt user c f).
Proof.
  intros f. unfold value_required, entry_of, must_be_set, named_off, own_content, has_setter; cbn.
  pose proof (default_coherent f) as D.
  destruct (default_value f); [rewrite D by discriminate|];
  destruct (is_builder_required c f), (needs_builder c f), (forced_builder f), (is_lazy c f), (is_optional c f),
    (f_has_default_value f); reflexivity.
Qed.
Lemma find_filter_map : forall (l : list field) (p q : field -> bool),
  option_map f_ident (find (fun f => p f && q f) l) = option_map f_ident (find q (filter p l)).
Proof.
  induction l as [|f l IH]; intros p q; cbn; [reflexivity|]. destruct (p f); cbn; [|apply IH].
  destruct (q f); [reflexivity|apply IH].
Qed.
Lemma find_map : forall A B (h : A -> B) (p : B -> bool) l, find p (map h l) = option_map h (find (fun x => p (h x)) l).
Proof. induction l as [|x l IH]; cbn; [reflexivity|]. destruct (p (h x)); [reflexivity|exact IH]. Qed.
Lemma find_ext : forall A (p q : A -> bool) l, (forall x, In x l -> p x = q x) -> find p l = find q l.
Proof.
  induction l as [|x l IH]; intros H; cbn; [reflexivity|]. rewrite (H x (or_introl eq_refl)).
  rewrite IH; [reflexivity|]. intros y Hy. apply H. now right.
Qed.
Lemma checks_run : forall b g, shows_form b g ->
  failed_check c b = first_missing (ents (builder_input c)) g.
Proof.
  intros b g Hb. unfold failed_check, builder_checked, first_missing. rewrite !find_map.
  transitivity (option_map f_ident (find (fun f => value_required (cfg_of c f) && is_none (b (f_ident f))) (builder_input c))).
  - rewrite find_filter_map. destruct (find _ _); reflexivity.
  - rewrite (find_ext _ _ (fun f => en_must (entry_of dflt user c f)
        && negb (is_some (g (en_name (entry_of dflt user c f))))) (builder_input c)).
    + destruct (find _ _); reflexivity.
    + intros f _. rewrite checked_entry, (Hb (f_ident f)). cbn. destruct (g (f_ident f)); reflexivity.
Qed.

Lemma missing_none : forall g, first_missing (ents (builder_input c)) g = None ->
  forall f, In f (builder_input c) -> is_builder_required c f = true -> g (f_ident f) <> None.
Proof.
  intros g H f Hf Hr E. unfold first_missing in H.
  destruct (find _ _) eqn:F; [discriminate|].
  pose proof (find_none _ _ F (entry_of dflt user c f) (in_map _ _ _ Hf)) as N. cbn in N.
  rewrite E in N. unfold must_be_set in N. rewrite Hr in N. destruct (named_off c f); discriminate N.
Qed.
Lemma input_nodup : NoDup (map f_ident (all_fields c)) -> NoDup (map f_ident (builder_input c)).
Proof.
  unfold builder_input. induction (all_fields c) as [|f l IH]; cbn; intros H; [constructor|].
  inversion H as [|? ? Hn Hd]; subst. destruct (negb (f_is_skipped f)); cbn; [|auto].
  constructor; [|auto]. intros X. apply Hn. apply in_map_iff in X as (f' & E & X). apply filter_In in X as [X _].
  rewrite <- E. now apply in_map.
Qed.

Variable post : object -> outcome object nat.
Hypothesis Hnd : NoDup (map f_ident (all_fields c)).
Hypothesis Hgen : generated c.
Notation es := (entries dflt user c).

Lemma build_runs : forall b g, shows_form b g -> filled_by_setters g ->
  exists r b' ps, build dflt user c post b = (r, b', ps) /\ answers c post (r, ps) (spec_build es g) /\
    shows_form b' (form_after es g).
Proof.
  intros b g Hb Hs. unfold entries, build, spec_build, form_after, spec_build. rewrite (checks_run b g Hb).
  destruct (first_missing (ents (builder_input c)) g) as [x|] eqn:M.
  - exists (BMissing x), b, []. split; [reflexivity|]. split; [reflexivity|exact Hb].
  - destruct (make_runs Hgen (builder_input c) b g (fun x H => H) (input_nodup Hnd) Hs
      (missing_none g M) (fun f _ => Hb (f_ident f))) as (b' & Hb' & R).
    assert (S : shows_form b' (fun x => if existsb (fun e => String.eqb x (en_name e)) (taken (ents (builder_input c)) g) then None else g x)).
    { intros x. rewrite Hb'. destruct (existsb _ _); [reflexivity|apply Hb]. }
    destruct (contents (ents (builder_input c)) g) as [k|].
    + destruct R as (o & -> & Hst). exists (fst (finish_build c post o)), b', (snd (finish_build c post o)).
      split; [reflexivity|]. split; [|exact S].
      exists o. split; [exact Hst|]. destruct (finish_build c post o); reflexivity.
    + rewrite R. exists BPanicked, b', []. repeat split. exact S.
Qed.

(** Setters. *)
Lemma setter_call : forall k m n v, field_builder k = Some m ->
  call idle false false dflt user m n (mk_st v 0 false 0) = MVal VSelf (mk_st (VSome (VT n)) 0 false 0).
Proof.
  intros k m n v M. unfold field_builder in M.
  destruct (g_forced k || g_builder k); [|discriminate]. injection M as <-.
  unfold arg_ty, arg_val. destruct (g_build_into k); reflexivity.
Qed.
Lemma setter_runs : forall x n b g, shows_form b g -> can_set es x = true ->
  exists b', call_setter dflt user c x n b = Some b' /\ shows_form b' (fill g x n).
Proof.
  intros x n b g Hb H. unfold call_setter, find_setter.
  assert (exists f m, find (fun p => String.eqb x (fst p)) (builder_setters c) = Some (f_ident f, m)
            /\ field_builder (cfg_of c f) = Some m /\ f_ident f = x) as (f & m & E & M & Hx).
  { unfold can_set in H. apply existsb_exists in H as (e & He & H). unfold entries in He. apply in_map_iff in He as (f & <- & Hf).
    apply andb_true_iff in H as [Hx Hs]. apply String.eqb_eq in Hx. cbn in Hx, Hs.
    destruct (find _ (builder_setters c)) as [[y m]|] eqn:F.
    - apply find_some in F as [F1 F2]. cbn in F2. apply String.eqb_eq in F2.
      unfold builder_setters in F1. apply in_flat_map in F1 as (f' & Hf' & F1).
      destruct (field_builder (cfg_of c f')) as [m'|] eqn:B; [|destruct F1].
      destruct F1 as [F1|[]]. injection F1 as <- <-. exists f', m'. split; [reflexivity|]. auto.
    - exfalso. unfold has_setter in Hs.
      assert (B : exists m, field_builder (cfg_of c f) = Some m).
      { unfold field_builder; cbn. rewrite orb_comm in Hs. rewrite Hs. eauto. }
      destruct B as [m B].
      assert (I : In (f_ident f, m) (builder_setters c)).
      { unfold builder_setters. apply in_flat_map. exists f. split; [exact Hf|]. rewrite B. left. reflexivity. }
      pose proof (find_none _ _ F _ I) as N. cbn in N. rewrite Hx, String.eqb_refl in N. discriminate. }
  rewrite E. cbn [option_map snd]. rewrite (setter_call _ m n (b x) M). cbn [fld].
  exists (bset b x (VSome (VT n))). split; [reflexivity|].
  intros y. unfold bset, fill. destruct (String.eqb x y); [reflexivity|apply Hb].
Qed.
Lemma fill_by_setters : forall g x n, filled_by_setters g -> can_set es x = true ->
  filled_by_setters (fill g x n).
Proof.
  intros g x n Hs H f Hf Hn. unfold fill. destruct (String.eqb_spec x (f_ident f)) as [E|_]; [|apply Hs; auto].
  unfold can_set in H. apply existsb_exists in H as (e & He & H). unfold entries in He. apply in_map_iff in He as (f' & <- & Hf').
  apply andb_true_iff in H as [Hx H]. apply String.eqb_eq in Hx. cbn in Hx, H. exfalso.
  assert (f' = f).
  { apply (ident_inj (all_fields c)); auto.
    - apply filter_In in Hf'. tauto.
    - apply filter_In in Hf. tauto.
    - congruence. }
  subst. congruence.
Qed.
Lemma after_by_setters : forall g, filled_by_setters g -> filled_by_setters (form_after es g).
Proof.
  intros g Hs f Hf Hn. unfold form_after. destruct (spec_build es g); [apply Hs; auto|..];
  (destruct (existsb _ _); [reflexivity|apply Hs; auto]).
Qed.
Lemma forms_run : forall l b g rs g', shows_form b g -> filled_by_setters g ->
  spec_forms es l g = Some (rs, g') ->
  exists qs b', build_run dflt user c post l b = Some (qs, b') /\ Forall2 (answers c post) qs rs /\
    shows_form b' g' /\ filled_by_setters g'.
Proof.
  induction l as [|a l IH]; intros b g rs g' Hb Hs H; cbn in H |- *.
  - injection H as <- <-. exists [], b. repeat split; auto.
  - destruct a as [x n|].
    + destruct (can_set es x) eqn:C; [|discriminate].
      destruct (setter_runs x n b g Hb C) as (b1 & -> & Hb1).
      apply (IH b1 _ _ _ Hb1 (fill_by_setters g x n Hs C) H).
    + destruct (spec_forms es l (form_after es g)) as [[rs' g1]|] eqn:E; [|discriminate]. injection H as <- <-.
      destruct (build_runs b g Hb Hs) as (r & b1 & ps & -> & A & Hb1).
      destruct (IH b1 _ _ _ Hb1 (after_by_setters g Hs) E) as (qs & b2 & -> & F & Hb2 & Hs2).
      exists ((r, ps) :: qs), b2. repeat split; auto.
Qed.
End One.
