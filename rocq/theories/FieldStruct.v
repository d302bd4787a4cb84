(** The methods emitted for a field of a struct, used by one thread. *)
From Coq Require Import List Bool String Arith Lia.
From Verif Require Import ProxyTypes ArgsModel CtxModel RustAst CommonGen PlainGen SyncGen StructGen
  CodegenSpec CodegenProofs CodegenStruct RustSem FieldSpec FieldRun FieldProofs FieldSeq.
Import ListNotations.
Open Scope string_scope.

Lemma hkind_eqb_eq : forall a b, hkind_eqb a b = true <-> a = b.
Proof. intros [] []; cbn; split; intros; congruence. Qed.

Section Struct.
Variable bld : nat -> outcome nat nat.
Variable dflt : nat.
Variable user : string -> nat.
Variable alive : bool.
Variable c : sctx.
Variable f : field.
Variable t : ty.
Variable ms : list mdecl.
Hypothesis Hskip : f_skip f = false.
Hypothesis Ht : field_type c f = GOk t.
Hypothesis Hms : field_methods c f = GOk ms.
Hypothesis Halive : s_is_ref_counted (c_args c) = true -> alive = true.

Lemma field_fits : fits t (view_of c f).
Proof.
  unfold field_type in Ht. unfold view_of. destruct (is_sync c f).
  - unfold sync_type in Ht. bind_in Ht. cbn [gbind] in Ht. injection Ht as <-. cbn. unfold f_is_skipped. rewrite Hskip.
    unfold maybe_locked, maybe_optional, sync_view; cbn.
    destruct (is_lazy c f); [eapply fit_lazy_proxy; reflexivity|].
    destruct (is_optional c f), (needs_lock c f); constructor; reflexivity.
  - injection Ht as <-. unfold plain_type, plain_view; cbn.
    destruct (is_lazy c f); [eapply fit_lazy; reflexivity|].
    destruct (is_optional c f), (is_inner_mut c f); constructor; reflexivity.
Qed.

Lemma field_method : forall k, works c f k = true -> exists m, find_method k ms = Some m /\
  forall n s c0, shows t s c0 -> no_guards (v_disc (view_of c f)) c0 ->
    agrees t (view_of c f) k (call bld (is_fallible c f) alive dflt user m n s)
      (spec_call bld dflt (view_of c f) k n c0).
Proof.
  intros k H. unfold works in H. apply andb_true_iff in H as [H Hm].
  apply andb_true_iff in H as [Ha Hw].
  apply (emitted_iff c f ms k Hskip Hms) in Ha. apply in_map_iff in Ha as (m0 & Hk & Hin).
  assert (exists m, find_method k ms = Some m) as [m Hf].
  { unfold find_method. destruct (find _ ms) eqn:F; [eauto|].
    pose proof (find_none _ _ F m0 Hin) as N. cbn in N. rewrite Hk in N.
    rewrite (proj2 (hkind_eqb_eq k k) eq_refl) in N. discriminate. }
  exists m. split; [exact Hf|]. apply find_some in Hf as [Hin' E]. apply hkind_eqb_eq in E.
  clear m0 Hk Hin. rename Hin' into Hin. unfold field_methods in Hms. unfold field_type in Ht.
  unfold view_of. destruct (is_sync c f).
  - intros n s c0 Hs Hn. rewrite <- E in *.
    exact (sync_runs bld dflt user (cfg_of c f) alive Halive (cfg_coherent c f) _ _ Hms Hin Hw Hm t Ht Hskip
             n s c0 Hs Hn).
  - injection Ht as <-. intros n s c0 Hs Hn. rewrite <- E in *.
    exact (plain_runs bld dflt user (cfg_of c f) alive Halive (cfg_coherent c f) _ _ Hms Hin Hw
             n s c0 Hs Hn).
Qed.
Lemma field_writer_locked : works c f KWriter = true -> v_disc (view_of c f) <> Direct.
Proof.
  unfold works, asked, view_of. destruct (is_sync c f); cbn; [|discriminate].
  unfold sync_well_typed; cbn. destruct (is_lazy c f); cbn; [destruct (is_async c f); discriminate|].
  destruct (needs_lock c f); cbn; [discriminate|]. now rewrite andb_false_r.
Qed.

Notation run_field := (impl_run bld (is_fallible c f) alive dflt user ms).

Lemma start_sim : forall w o b, rep t o = Some w ->
  sim (view_of c f) t (fresh w b) (mk_ust o [] b).
Proof.
  intros w o b H. constructor; cbn; auto; try (intros ? []); try discriminate.
  repeat split; cbn; auto.
Qed.
Lemma field_runs : forall l o w b os u', only_calls (works c f) l = true ->
  rep t o = Some w -> spec_run bld dflt (view_of c f) l (mk_ust o [] b) = Some (os, u') ->
  exists iu, run_field l (fresh w b) = Some (os, iu) /\ sim (view_of c f) t iu u'.
Proof.
  intros l o w b os u' Hl Hr Hs.
  eapply (run_sim bld dflt (view_of c f) t field_fits (is_fallible c f) alive user ms (works c f)
            field_method field_writer_locked); eauto using start_sim.
Qed.
End Struct.

(** ** Without kept guards the way of storing does not matter *)
Definition core (r : result) : option (option answer * option nat * nat) :=
  match r with
  | Returns an c => Some (Some an, c_val c, c_builds c)
  | Panics c => Some (None, c_val c, c_builds c)
  | Waits c => None
  | Nonsense => None
  end.
Definition plainly (sh : shape) : view := mk_view sh Direct true.
Lemma core_same : forall bld dflt v k n o b,
  core (spec_call bld dflt v k n (mk_cellst o 0 false b))
  = core (spec_call bld dflt (plainly (v_shape v)) k n (mk_cellst o 0 false b)) /\
  (spec_call bld dflt v k n (mk_cellst o 0 false b) = Nonsense <->
   core (spec_call bld dflt v k n (mk_cellst o 0 false b)) = None).
Proof.
  intros bld dflt [sh di ke] k n o b. unfold plainly; cbn [v_shape].
  destruct k, sh as [| |fl], di; destruct o as [o|]; unfold spec_call, look, with_access, excluded, keeping;
  cbn; try (destruct (bld b)); try destruct fl; cbn; try destruct ke; cbn;
  repeat split; intros; reflexivity || discriminate || assumption.
Qed.
(** The effect of a call whose guard is not kept. *)
Definition core_act (sh : shape) (k : hkind) (us : usage) (r : option (option answer * option nat * nat))
  : option (obs * ust) :=
  match r with
  | None => None
  | Some (None, o, b) => Some (OPanic, mk_ust o [] b)
  | Some (Some an, o, b) =>
      match us with
      | Assign x =>
          if mutator k && assignable (plainly sh) (raw_writer (plainly sh) k) x
          then Some (ORet an, match an with AnErr _ => mk_ust o [] b | _ => mk_ust x [] b end)
          else None
      | _ => Some (ORet an, mk_ust o [] b)
      end
  end.
Lemma core_act_same : forall bld dflt v k n us o b, us <> Keep ->
  spec_act bld dflt v (ACall k n us) (mk_ust o [] b)
  = core_act (v_shape v) k us (core (spec_call bld dflt (plainly (v_shape v)) k n (mk_cellst o 0 false b))).
Proof.
  intros bld dflt v k n us o b Hus. destruct (core_same bld dflt v k n o b) as [<- N].
  cbn [spec_act]. unfold cell_of; cbn [u_val u_guards u_builds].
  change (readers []) with 0. change (writing []) with false.
  destruct (spec_call bld dflt v k n (mk_cellst o 0 false b)) as [an c|c|c|]; cbn in *.
  - destruct us as [| |x]; [congruence| |].
    + destruct an; reflexivity.
    + replace (assignable (plainly (v_shape v)) (raw_writer (plainly (v_shape v)) k) x)
        with (assignable v (raw_writer v k) x) by reflexivity.
      destruct (mutator k && assignable v (raw_writer v k) x), an; reflexivity.
  - reflexivity.
  - destruct N as [_ N]. discriminate (N eq_refl).
  - reflexivity.
Qed.
Lemma core_act_guards : forall sh k us r o u, core_act sh k us r = Some (o, u) ->
  u_guards u = [] /\ o <> OWait.
Proof.
  intros sh k us r o u H. unfold core_act in H. destruct r as [[[[an|] x] b]|]; try discriminate.
  - destruct us; [|..|destruct (mutator k && _); try discriminate; destruct an];
      injection H as <- <-; split; (reflexivity || discriminate).
  - injection H as <- <-. split; (reflexivity || discriminate).
Qed.
Lemma unkept : forall l, nothing_kept l = true -> match l with
  | [] => True
  | ACall _ _ us :: t => us <> Keep /\ nothing_kept t = true
  | _ => False end.
Proof.
  intros [|a t] H; [exact I|]. cbn in H. apply andb_true_iff in H as [H1 H2].
  destruct a as [k n us|i|i x|i]; try discriminate. destruct us; try discriminate; auto; split; congruence || auto.
Qed.

Lemma spec_same_shape : forall bld dflt v1 v2, v_shape v1 = v_shape v2 -> forall l o b,
  nothing_kept l = true ->
  spec_run bld dflt v1 l (mk_ust o [] b) = spec_run bld dflt v2 l (mk_ust o [] b).
Proof.
  intros bld dflt v1 v2 Hsh. induction l as [|a l IH]; intros o b Hk; [reflexivity|].
  apply unkept in Hk. destruct a as [k n us|i|i x|i]; try contradiction. destruct Hk as [Hu Hk].
  cbn [spec_run]. rewrite !core_act_same by exact Hu. rewrite Hsh.
  destruct (core_act _ _ _ _) as [[ob u]|] eqn:E; [|reflexivity].
  apply core_act_guards in E as [G _]. destruct u as [o' gs b']. cbn in G. subst gs.
  rewrite (IH o' b' Hk). reflexivity.
Qed.

(** ** Sequences of calls are always meaningful *)
Lemma spec_total : forall bld dflt v l o b, nothing_kept l = true -> forallb (sensible v) l = true ->
  has_content v o = true ->
  exists os u', spec_run bld dflt v l (mk_ust o [] b) = Some (os, u') /\ u_guards u' = [] /\
    has_content v (u_val u') = true /\ ~ In OWait os /\ List.length os = List.length l.
Proof.
  intros bld dflt v. induction l as [|a l IH]; intros o b Hk Ha Hh.
  - cbn. exists [], (mk_ust o [] b). repeat split; auto.
  - apply unkept in Hk. destruct a as [k n us|i|i x|i]; try contradiction. destruct Hk as [Hu Hk].
    cbn [forallb] in Ha. apply andb_true_iff in Ha as [Ha1 Ha]. cbn [spec_run].
    rewrite core_act_same by exact Hu.
    assert (exists ob o1 b1, core_act (v_shape v) k us
              (core (spec_call bld dflt (plainly (v_shape v)) k n (mk_cellst o 0 false b)))
              = Some (ob, mk_ust o1 [] b1) /\ has_content v o1 = true /\ ob <> OWait)
      as (ob & o1 & b1 & E & H1 & NW).
    { clear IH Hk Ha. destruct v as [sh di ke]. unfold has_content in *. cbn [v_shape] in *.
      destruct k; try discriminate Ha1; destruct sh as [| |fl]; destruct o as [o|]; try discriminate Hh;
      unfold spec_call, look, with_access, keeping; cbn; try (destruct (bld b)); cbn; try destruct fl; cbn;
      destruct us as [| |x]; try congruence; try discriminate Ha1; cbn;
      try (destruct x; try discriminate Ha1; cbn);
      eexists; eexists; eexists; (split; [reflexivity|]); split; reflexivity || discriminate. }
    rewrite E. destruct (IH o1 b1 Hk Ha H1) as (os & u' & -> & G2 & H2 & N & L).
    destruct ob; try congruence; eexists; eexists; (split; [reflexivity|]); repeat split; cbn; auto;
    intros [X|X]; try discriminate; auto.
Qed.

Lemma view_shape : forall c1 f1 c2 f2, same_content (settings_of c1 f1) (settings_of c2 f2) ->
  v_shape (view_of c1 f1) = v_shape (view_of c2 f2).
Proof.
  intros c1 f1 c2 f2 (A & B & C). unfold view_of.
  destruct (is_sync c1 f1), (is_sync c2 f2); cbn in *; rewrite A in *;
  destruct (is_lazy c2 f2); cbn; try (rewrite B by reflexivity); try (rewrite C by reflexivity); reflexivity.
Qed.

(** ** Guards alive: exactly the conflicting calls fail *)
Lemma excluded_conflicting : forall k gs o b, match k with KBuilder | KLazy => False | _ => True end ->
  excluded (match k with KAccessor | KPredicate | KReader => false | _ => true end) (cell_of (mk_ust o gs b))
  = conflicting k (map gd_write gs).
Proof.
  intros k gs o b Hk. unfold excluded, cell_of; cbn.
  assert (E : writing gs = existsb (fun w => w) (map gd_write gs)).
  { unfold writing. induction gs; cbn; congruence. }
  assert (R : writing gs || (0 <? readers gs)%nat = match map gd_write gs with [] => false | _ => true end).
  { destruct gs as [|h gs]; [reflexivity|]. cbn [map].
    destruct (writing (h :: gs)) eqn:W; [reflexivity|]. rewrite (readers_length _ W). reflexivity. }
  destruct k; try contradiction; first [exact E | exact R].
Qed.
Lemma shows_inj : forall t s1 s2 c, shows t s1 c -> shows t s2 c -> s1 = s2.
Proof.
  intros t [f1 r1 w1 b1] [f2 r2 w2 b2] c (A & B & C & D) (A' & B' & C' & D'). cbn in *.
  rewrite A in A'. injection A' as ->. congruence.
Qed.
Lemma spec_guarded : forall bld dflt v k n o gs b, v_disc v <> Solo -> match v_shape v with Lazy _ => False | _ => True end ->
  match k with KBuilder | KLazy => False | _ => True end -> has_content v o = true ->
  (conflicting k (map gd_write gs) = true ->
   spec_call bld dflt v k n (cell_of (mk_ust o gs b)) =
   match v_disc v with
   | Panicking => Panics (cell_of (mk_ust o gs b))
   | Blocking => Waits (cell_of (mk_ust o gs b))
   | Solo => spec_call bld dflt v k n (cell_of (mk_ust o gs b))
   | Direct => spec_call bld dflt v k n (cell_of (mk_ust o gs b))
   end) /\
  (conflicting k (map gd_write gs) = false ->
   exists an c, spec_call bld dflt v k n (cell_of (mk_ust o gs b)) = Returns an c).
Proof.
  intros bld dflt [sh di ke] k n o gs b Hso Hs Hk Hc. cbn in Hso. rewrite <- (excluded_conflicting k gs o b Hk).
  destruct k; try contradiction; destruct sh; try contradiction; destruct di; try congruence; destruct o as [o|];
  try discriminate Hc; split; intros H; unfold spec_call, look, with_access; cbn [v_shape v_disc cell_of c_val u_val];
  try reflexivity; rewrite ?H; try reflexivity; eexists; eexists; reflexivity.
Qed.

Section Guards.
Variable bld : nat -> outcome nat nat.
Variable dflt : nat.
Variable user : string -> nat.
Variable alive : bool.
Variable c : sctx.
Variable f : field.
Variable t : ty.
Variable ms : list mdecl.
Hypothesis Hskip : f_skip f = false.
Hypothesis Ht : field_type c f = GOk t.
Hypothesis Hms : field_methods c f = GOk ms.
Hypothesis Halive : s_is_ref_counted (c_args c) = true -> alive = true.
Hypothesis Hlazy : is_lazy c f = false.

Lemma not_lazy_view : match v_shape (view_of c f) with Lazy _ => False | _ => True end.
Proof.
  unfold view_of. destruct (is_sync c f); cbn; rewrite Hlazy; destruct (is_optional c f); exact I.
Qed.
Lemma not_solo : v_disc (view_of c f) <> Solo.
Proof.
  unfold view_of. destruct (is_sync c f); cbn; rewrite Hlazy;
  [destruct (needs_lock c f)|destruct (is_inner_mut c f)]; discriminate.
Qed.
Lemma guarded_call : forall iu u k n us, sim (view_of c f) t iu u -> works c f k = true ->
  let act := impl_act bld (is_fallible c f) alive dflt user ms (ACall k n us) iu in
  sensible (view_of c f) (ACall k n us) = true ->
  if conflicting k (map fst (i_guards iu))
  then match v_disc (view_of c f) with
       | Panicking => act = Some (OPanic, iu)
       | Blocking => act = Some (OWait, iu)
       | Direct => True
       | Solo => False
       end
  else exists an iu', act = Some (ORet an, iu').
Proof.
  intros iu u k n us S Hw act Hsen.
  assert (Hk : match k with KBuilder | KLazy => False | _ => True end) by (destruct k; try exact I; discriminate Hsen).
  assert (HC : has_content (view_of c f) (u_val u) = true).
  { unfold has_content. destruct (v_shape (view_of c f)) eqn:V; try reflexivity.
    destruct S as [(A & _) _ _ _ _ _].
    pose proof (content_ok _ _ (field_fits c f t Hskip Ht) _ _ A V) as N. cbn in N.
    destruct (u_val u); [reflexivity|congruence]. }
  destruct (spec_guarded bld dflt (view_of c f) k n (u_val u) (u_guards u) (u_builds u) not_solo not_lazy_view Hk HC) as [P1 P2].
  replace (map fst (i_guards iu)) with (map gd_write (u_guards u))
    by (rewrite (sim_handles _ _ _ _ S), map_map; reflexivity).
  pose proof (sim_no_guards _ _ _ _ S) as NG.
  destruct (field_method bld dflt user alive c f t ms Hskip Ht Hms Halive k Hw) as (m & Hf & Hag).
  specialize (Hag n _ _ (sim_shows _ _ _ _ S) NG). subst act. cbn [impl_act]. rewrite Hf.
  destruct u as [o gs b]. cbn [u_val u_guards u_builds] in *.
  destruct (conflicting k (map gd_write gs)).
  - specialize (P1 eq_refl). destruct (v_disc (view_of c f)) eqn:D; [exact I|..|destruct not_solo; exact D]; rewrite P1 in Hag;
    (destruct (call _ _ _ _ _ m n (i_st iu)); cbn in Hag; try contradiction;
     rewrite (shows_inj _ _ _ _ Hag (sim_shows _ _ _ _ S)); destruct iu; reflexivity).
  - specialize (P2 eq_refl). destruct P2 as (an & c' & E). 
    assert (EA : exists u1, spec_act bld dflt (view_of c f) (ACall k n us) (mk_ust o gs b) = Some (ORet an, u1)).
    { cbn [spec_act]. rewrite E. cbn in Hsen. destruct us as [| |x].
      - destruct an; eauto.
      - destruct an; eauto.
      - destruct k; try contradiction; try discriminate Hsen; cbn [mutator andb] in *; rewrite Hsen; eauto. }
    destruct EA as (u1 & EA).
    destruct (step_sim bld dflt (view_of c f) t (field_fits c f t Hskip Ht) (is_fallible c f) alive user ms (works c f)
      (field_method bld dflt user alive c f t ms Hskip Ht Hms Halive) (field_writer_locked c f)
      (ACall k n us) iu _ _ _ S Hw EA) as (iu' & EI & _).
    cbn [impl_act] in EI. rewrite Hf in EI. eauto.
Qed.
End Guards.

(** ** Lazy fields *)
Lemma reads_stable : forall bld dflt v fl l n b, v_shape v = Lazy fl -> reads l = true ->
  spec_run bld dflt v l (mk_ust (Some n) [] b) = Some (map (read_answer n) l, mk_ust (Some n) [] b).
Proof.
  intros bld dflt v fl l n b Hs. induction l as [|a l IH]; intros H; [reflexivity|].
  cbn [reads forallb] in H. apply andb_true_iff in H as [H1 H].
  destruct a as [k x us|i|i x|i]; try discriminate; destruct k; try discriminate; destruct us; try discriminate;
  cbn [spec_run]; rewrite core_act_same by discriminate; rewrite Hs; cbn; rewrite (IH H); reflexivity.
Qed.

Lemma lazy_not_skipped : forall c f, is_lazy c f = true -> f_skip f = false.
Proof.
  intros c f H. destruct (f_skip f) eqn:E; [|reflexivity].
  rewrite (proj1 (skip_settings c f E)) in H. discriminate.
Qed.
Lemma unkept_refines : forall bld dflt user alive c f t ms l o w b, f_skip f = false ->
  field_type c f = GOk t -> field_methods c f = GOk ms ->
  (s_is_ref_counted (c_args c) = true -> alive = true) ->
  only_calls (works c f) l = true -> nothing_kept l = true ->
  forallb (sensible (view_of c f)) l = true -> rep t o = Some w ->
  exists os o' b' iu,
    spec_run bld dflt (plainly (v_shape (view_of c f))) l (mk_ust o [] b)
      = Some (os, mk_ust o' [] b') /\
    List.length os = List.length l /\
    impl_run bld (is_fallible c f) alive dflt user ms l (fresh w b) = Some (os, iu) /\
    rep t o' = Some (fld (i_st iu)) /\ calls (i_st iu) = b' /\ i_guards iu = [].
Proof.
  intros bld dflt user alive c f t ms l o w b Hsk Ht Hm Ha Hl Hk Hs Hr.
  assert (HC : has_content (view_of c f) o = true).
  { unfold has_content. destruct (v_shape (view_of c f)) eqn:V; try reflexivity.
    pose proof (content_ok _ _ (field_fits c f t Hsk Ht) (mk_st w 0 false 0) o Hr V) as N.
    destruct o; [reflexivity|congruence]. }
  destruct (spec_total bld dflt (view_of c f) l o b Hk Hs HC) as (os & u' & E & G & _ & _ & L).
  destruct (field_runs bld dflt user alive c f t ms Hsk Ht Hm Ha l o w b os u' Hl Hr E) as (iu & R & S).
  destruct u' as [o' gs b']. cbn in G. subst gs. exists os, o', b', iu.
  rewrite <- (spec_same_shape bld dflt (view_of c f) (plainly (v_shape (view_of c f)))) by (auto; reflexivity).
  destruct S as [(S1 & S2 & S3 & S4) S5 _ _ _ _]. cbn in *. auto 7.
Qed.
Lemma plain_lazy_refines : forall bld dflt user alive c f t ms l o w b,
  is_sync c f = false -> is_lazy c f = true ->
  field_type c f = GOk t -> field_methods c f = GOk ms ->
  (s_is_ref_counted (c_args c) = true -> alive = true) ->
  only_calls (works c f) l = true -> nothing_kept l = true ->
  forallb (sensible (view_of c f)) l = true -> rep t o = Some w ->
  exists os o' b' iu,
    spec_run bld dflt (mk_view (Lazy (is_fallible c f)) Direct true) l (mk_ust o [] b)
      = Some (os, mk_ust o' [] b') /\
    List.length os = List.length l /\
    impl_run bld (is_fallible c f) alive dflt user ms l (fresh w b) = Some (os, iu) /\
    rep t o' = Some (fld (i_st iu)) /\ calls (i_st iu) = b' /\ i_guards iu = [].
Proof.
  intros bld dflt user alive c f t ms l o w b Hsy Hla. intros.
  replace (mk_view (Lazy (is_fallible c f)) Direct true) with (plainly (v_shape (view_of c f)))
    by (unfold plainly, view_of; rewrite Hsy; cbn; rewrite Hla; reflexivity).
  eapply unkept_refines; eauto using lazy_not_skipped.
Qed.
Lemma same_results : forall bld dflt user alive c1 f1 t1 ms1 c2 f2 t2 ms2 l o w1 w2 b,
  f_skip f1 = false -> f_skip f2 = false ->
  same_content (settings_of c1 f1) (settings_of c2 f2) ->
  field_type c1 f1 = GOk t1 -> field_methods c1 f1 = GOk ms1 ->
  field_type c2 f2 = GOk t2 -> field_methods c2 f2 = GOk ms2 ->
  (s_is_ref_counted (c_args c1) || s_is_ref_counted (c_args c2) = true -> alive = true) ->
  only_calls (works c1 f1) l = true -> only_calls (works c2 f2) l = true -> nothing_kept l = true ->
  forallb (sensible (view_of c1 f1)) l = true -> rep t1 o = Some w1 -> rep t2 o = Some w2 ->
  exists os o' iu1 iu2,
    impl_run bld (is_fallible c1 f1) alive dflt user ms1 l (fresh w1 b) = Some (os, iu1) /\
    impl_run bld (is_fallible c2 f2) alive dflt user ms2 l (fresh w2 b) = Some (os, iu2) /\
    List.length os = List.length l /\
    rep t1 o' = Some (fld (i_st iu1)) /\ rep t2 o' = Some (fld (i_st iu2)) /\
    calls (i_st iu1) = calls (i_st iu2).
Proof.
  intros bld dflt user alive c1 f1 t1 ms1 c2 f2 t2 ms2 l o w1 w2 b K1 K2 SC T1 M1 T2 M2 Ha L1 L2 Nk Se R1 R2.
  pose proof (view_shape _ _ _ _ SC) as V.
  assert (Se2 : forallb (sensible (view_of c2 f2)) l = true).
  { rewrite <- Se. clear - V. induction l as [|a l IH]; cbn; [reflexivity|]. rewrite IH. f_equal.
    destruct a as [k n us|i|i x|i]; try reflexivity. unfold sensible, assignable, raw_writer, is_lazy_view.
    rewrite V. reflexivity. }
  destruct (unkept_refines bld dflt user alive c1 f1 t1 ms1 l o w1 b) as (os & o' & b' & iu & E & Le & I & Q & C & G);
    auto; [intros X; apply Ha; rewrite X; reflexivity|].
  destruct (unkept_refines bld dflt user alive c2 f2 t2 ms2 l o w2 b) as (os2 & o2 & b2 & iu2 & E2 & Le2 & I2 & Q2 & C2 & G2);
    auto; [intros X; apply Ha; rewrite X; apply orb_true_r|].
  rewrite <- V, E in E2. injection E2 as <- <- <-. exists os, o', iu, iu2. repeat split; auto; congruence.
Qed.
Lemma first_read : forall bld dflt user alive c f t ms l w b n x, is_lazy c f = true ->
  field_type c f = GOk t -> field_methods c f = GOk ms ->
  (s_is_ref_counted (c_args c) = true -> alive = true) ->
  works c f KAccessor = true -> only_calls (works c f) l = true -> reads l = true ->
  rep t None = Some w -> bld b = BOk n ->
  exists iu,
    impl_run bld (is_fallible c f) alive dflt user ms (ACall KAccessor x Release :: l) (fresh w b)
      = Some (ORet (AnVal n) :: map (read_answer n) l, iu) /\
    rep t (Some n) = Some (fld (i_st iu)) /\ calls (i_st iu) = S b.
Proof.
  intros bld dflt user alive c f t ms l w b n x Hla Ht Hm Ha Hw Hl Hr Hrep Hb.
  assert (V : v_shape (view_of c f) = Lazy (is_fallible c f)).
  { unfold view_of. destruct (is_sync c f); cbn; rewrite Hla; reflexivity. }
  assert (E : spec_run bld dflt (view_of c f) (ACall KAccessor x Release :: l) (mk_ust None [] b)
     = Some (ORet (AnVal n) :: map (read_answer n) l, mk_ust (Some n) [] (S b))).
  { cbn [spec_run]. rewrite core_act_same by discriminate. rewrite V. cbn. rewrite Hb. cbn.
    rewrite (reads_stable _ _ _ _ _ _ _ V Hr). reflexivity. }
  assert (Hl' : only_calls (works c f) (ACall KAccessor x Release :: l) = true)
    by (cbn; rewrite Hw; exact Hl).
  destruct (field_runs bld dflt user alive c f t ms (lazy_not_skipped _ _ Hla) Ht Hm Ha _ None w b _ _ Hl' Hrep E)
    as (iu & R & [(S1 & S2 & S3 & S4) _ _ _ _ _]).
  exists iu. auto.
Qed.
Lemma failed_read : forall bld dflt user alive c f t ms w b x, is_lazy c f = true ->
  field_type c f = GOk t -> field_methods c f = GOk ms ->
  (s_is_ref_counted (c_args c) = true -> alive = true) ->
  works c f KAccessor = true -> rep t None = Some w -> (forall n, bld b <> BOk n) ->
  exists iu,
    impl_run bld (is_fallible c f) alive dflt user ms [ACall KAccessor x Release] (fresh w b)
      = Some ([match bld b with
               | BErr e => if is_fallible c f then ORet (AnErr e) else OPanic
               | _ => OPanic
               end], iu) /\
    i_st iu = mk_st w 0 false (S b) /\ i_guards iu = [].
Proof.
  intros bld dflt user alive c f t ms w b x Hla Ht Hm Ha Hw Hrep Hb.
  assert (V : v_shape (view_of c f) = Lazy (is_fallible c f)).
  { unfold view_of. destruct (is_sync c f); cbn; rewrite Hla; reflexivity. }
  assert (E : spec_run bld dflt (view_of c f) [ACall KAccessor x Release] (mk_ust None [] b)
     = Some ([match bld b with
               | BErr e => if is_fallible c f then ORet (AnErr e) else OPanic
               | _ => OPanic
               end], mk_ust None [] (S b))).
  { cbn [spec_run]. rewrite core_act_same by discriminate. rewrite V. cbn.
    destruct (bld b); [destruct (Hb v eq_refl)| |]; try reflexivity.
    destruct (is_fallible c f); reflexivity. }
  assert (Hl' : only_calls (works c f) [ACall KAccessor x Release] = true)
    by (cbn; rewrite Hw; reflexivity).
  destruct (field_runs bld dflt user alive c f t ms (lazy_not_skipped _ _ Hla) Ht Hm Ha _ None w b _ _ Hl' Hrep E)
    as (iu & R & [(S1 & S2 & S3 & S4) S5 _ _ _ _]).
  exists iu. split; [exact R|]. cbn in *. split; [|exact S5].
  destruct (i_st iu). cbn in *. rewrite Hrep in S1. injection S1 as ->. subst. reflexivity.
Qed.
Lemma guarded_runs : forall bld dflt user alive c f t ms l o w b os u k n us, f_skip f = false ->
  is_lazy c f = false -> field_type c f = GOk t -> field_methods c f = GOk ms ->
  (s_is_ref_counted (c_args c) = true -> alive = true) ->
  only_calls (works c f) l = true -> rep t o = Some w ->
  spec_run bld dflt (view_of c f) l (mk_ust o [] b) = Some (os, u) ->
  works c f k = true -> sensible (view_of c f) (ACall k n us) = true ->
  exists iu, impl_run bld (is_fallible c f) alive dflt user ms l (fresh w b) = Some (os, iu) /\
    let act := impl_act bld (is_fallible c f) alive dflt user ms (ACall k n us) iu in
    if conflicting k (map fst (i_guards iu))
    then match v_disc (view_of c f) with
         | Panicking => act = Some (OPanic, iu)
         | Blocking => act = Some (OWait, iu)
         | Direct => True
         | Solo => False
         end
    else exists an iu', act = Some (ORet an, iu').
Proof.
  intros bld dflt user alive c f t ms l o w b os u k n us Hsk Hla Ht Hm Ha Hl Hr E Hw Hse.
  destruct (field_runs bld dflt user alive c f t ms Hsk Ht Hm Ha l o w b os u Hl Hr E) as (iu & R & S).
  exists iu. split; [exact R|].
  exact (guarded_call bld dflt user alive c f t ms Hsk Ht Hm Ha Hla iu u k n us S Hw Hse).
Qed.

(** ** Guards of lazy fields *)
Lemma spec_lazy_guarded : forall bld dflt v (a : bool) fl k n o gs b,
  v_shape v = Lazy fl -> v_disc v = (if a then Solo else Blocking) ->
  match k with KBuilder | KLazy => False | _ => True end ->
  (o = None -> forall h, In h gs -> gd_write h = true) ->
  if lazy_conflicting a k (map gd_write gs)
  then spec_call bld dflt v k n (cell_of (mk_ust o gs b)) = Waits (cell_of (mk_ust o gs b))
  else (exists an c, spec_call bld dflt v k n (cell_of (mk_ust o gs b)) = Returns an c) \/
       (exists c, spec_call bld dflt v k n (cell_of (mk_ust o gs b)) = Panics c).
Proof.
  intros bld dflt [sh di ke] a fl k n o gs b Hs Hd Hk Hn. cbn in Hs, Hd. subst sh di.
  pose proof (excluded_conflicting KAccessor gs o b I) as R. cbn [conflicting] in R.
  pose proof (excluded_conflicting KSetter gs o b I) as W. cbn [conflicting] in W.
  assert (RW : o = None -> existsb (fun w => w) (map gd_write gs)
                           = match map gd_write gs with [] => false | _ => true end).
  { intros ->. destruct gs as [|h gs]; [reflexivity|]. cbn.
    rewrite (Hn eq_refl h (or_introl eq_refl)). reflexivity. }
  destruct k; try contradiction; destruct a; cbn [lazy_conflicting];
  unfold spec_call, look, with_access; cbn [v_shape v_disc cell_of c_val u_val]; destruct o as [o|];
  try rewrite (RW eq_refl); try rewrite <- W; try rewrite <- R;
  try (match goal with |- context [excluded ?x ?y] => destruct (excluded x y) end);
  try reflexivity; try (left; eexists; eexists; reflexivity);
  match goal with |- context [bld ?x] => destruct (bld x) end;
  try (destruct fl); first [left; eexists; eexists; reflexivity | right; eexists; reflexivity].
Qed.
Lemma lazy_guarded_runs : forall bld dflt user alive c f t ms l o w b os u k n us,
  is_sync c f = true -> is_lazy c f = true -> field_type c f = GOk t -> field_methods c f = GOk ms ->
  (s_is_ref_counted (c_args c) = true -> alive = true) ->
  only_calls (works c f) l = true -> rep t o = Some w ->
  spec_run bld dflt (view_of c f) l (mk_ust o [] b) = Some (os, u) ->
  works c f k = true -> sensible (view_of c f) (ACall k n us) = true ->
  exists iu, impl_run bld (is_fallible c f) alive dflt user ms l (fresh w b) = Some (os, iu) /\
    let act := impl_act bld (is_fallible c f) alive dflt user ms (ACall k n us) iu in
    if lazy_conflicting (is_async c f) k (map fst (i_guards iu))
    then act = Some (OWait, iu)
    else exists ob iu', act = Some (ob, iu') /\ ob <> OWait.
Proof.
  intros bld dflt user alive c f t ms l o w b os u k n us Hsy Hla Ht Hm Ha Hl Hr E Hw Hsen.
  pose proof (lazy_not_skipped c f Hla) as Hsk.
  destruct (field_runs bld dflt user alive c f t ms Hsk Ht Hm Ha l o w b os u Hl Hr E) as (iu & R & S).
  exists iu. split; [exact R|]. intros act. clear R E.
  assert (Vs : v_shape (view_of c f) = Lazy (is_fallible c f))
    by (unfold view_of; rewrite Hsy; cbn; rewrite Hla; reflexivity).
  assert (Vd : v_disc (view_of c f) = if is_async c f then Solo else Blocking)
    by (unfold view_of; rewrite Hsy; cbn; rewrite Hla; reflexivity).
  assert (Hk : match k with KBuilder | KLazy => False | _ => True end) by (destruct k; try exact I; discriminate Hsen).
  destruct u as [o' gs b'].
  assert (Hn : o' = None -> forall h, In h gs -> gd_write h = true).
  { intros -> h Hh. destruct (gd_raw h) eqn:G.
    - exact (proj1 (sim_raw _ _ _ _ S h Hh G)).
    - destruct (sim_full _ _ _ _ S h Hh G); [congruence|reflexivity]. }
  pose proof (spec_lazy_guarded bld dflt (view_of c f) (is_async c f) _ k n o' gs b' Vs Vd Hk Hn) as P.
  replace (map fst (i_guards iu)) with (map gd_write gs)
    by (rewrite (sim_handles _ _ _ _ S), map_map; reflexivity).
  pose proof (sim_no_guards _ _ _ _ S) as NG.
  destruct (field_method bld dflt user alive c f t ms Hsk Ht Hm Ha k Hw) as (m & Hf & Hag).
  specialize (Hag n _ _ (sim_shows _ _ _ _ S) NG).
  destruct (lazy_conflicting _ k _).
  - subst act. cbn [impl_act]. rewrite Hf. rewrite P in Hag.
    destruct (call _ _ _ _ _ m n (i_st iu)); cbn in Hag; try contradiction.
    rewrite (shows_inj _ _ _ _ Hag (sim_shows _ _ _ _ S)). destruct iu; reflexivity.
  - assert (EA : exists ob u1, spec_act bld dflt (view_of c f) (ACall k n us) (mk_ust o' gs b') = Some (ob, u1)
                 /\ ob <> OWait).
    { cbn [spec_act]. destruct P as [(an & c' & P)|(c' & P)]; rewrite P.
      - cbn in Hsen. destruct us as [| |x].
        + destruct an; eexists; eexists; (split; [reflexivity|discriminate]).
        + destruct an; eexists; eexists; (split; [reflexivity|discriminate]).
        + destruct k; try contradiction; try discriminate Hsen; cbn [mutator andb] in *; rewrite Hsen;
          eexists; eexists; (split; [reflexivity|discriminate]).
      - eexists; eexists; (split; [reflexivity|discriminate]). }
    destruct EA as (ob & u1 & EA & NW).
    destruct (step_sim bld dflt (view_of c f) t (field_fits c f t Hsk Ht) (is_fallible c f) alive user ms (works c f)
      (field_method bld dflt user alive c f t ms Hsk Ht Hm Ha) (field_writer_locked c f)
      (ACall k n us) iu _ _ _ S Hw EA) as (iu' & EI & _).
    exists ob, iu'. split; [exact EI|exact NW].
Qed.
Lemma guards_refine : forall bld dflt user alive c f t ms l o w b os u,
  f_skip f = false -> field_type c f = GOk t -> field_methods c f = GOk ms ->
  (s_is_ref_counted (c_args c) = true -> alive = true) ->
  only_calls (works c f) l = true -> rep t o = Some w ->
  spec_run bld dflt (view_of c f) l (mk_ust o [] b) = Some (os, u) ->
  exists iu, impl_run bld (is_fallible c f) alive dflt user ms l (fresh w b) = Some (os, iu) /\
    rep t (u_val u) = Some (fld (i_st iu)) /\ calls (i_st iu) = u_builds u /\
    map fst (i_guards iu) = map gd_write (u_guards u).
Proof.
  intros bld dflt user alive c f t ms l o w b os u Hsk Ht Hm Ha Hl Hr E.
  destruct (field_runs bld dflt user alive c f t ms Hsk Ht Hm Ha l o w b os u Hl Hr E) as (iu & R & S).
  exists iu. split; [exact R|]. destruct (sim_shows _ _ _ _ S) as (A & _ & _ & D). repeat split; auto.
  rewrite (sim_handles _ _ _ _ S), map_map. reflexivity.
Qed.

Lemma inner_mut_guarded : forall bld dflt user alive c f t ms l o w b os u k n us,
  f_skip f = false -> is_sync c f = false -> is_lazy c f = false -> is_inner_mut c f = true ->
  field_type c f = GOk t -> field_methods c f = GOk ms ->
  (s_is_ref_counted (c_args c) = true -> alive = true) ->
  only_calls (works c f) l = true -> rep t o = Some w ->
  spec_run bld dflt (view_of c f) l (mk_ust o [] b) = Some (os, u) ->
  works c f k = true -> sensible (view_of c f) (ACall k n us) = true ->
  exists iu, impl_run bld (is_fallible c f) alive dflt user ms l (fresh w b) = Some (os, iu) /\
    let act := impl_act bld (is_fallible c f) alive dflt user ms (ACall k n us) iu in
    if conflicting k (map fst (i_guards iu))
    then act = Some (OPanic, iu)
    else exists an iu', act = Some (ORet an, iu').
Proof.
  intros bld dflt user alive c f t ms l o w b os u k n us Hsk Hsy Hla Him Ht Hm Ha Hl Hr E Hw Hse.
  destruct (guarded_runs bld dflt user alive c f t ms l o w b os u k n us) as (iu & R & P); auto.
  exists iu. split; [exact R|]. intros act.
  replace (v_disc (view_of c f)) with Panicking in P
    by (unfold view_of; rewrite Hsy; cbn; rewrite Hla, Him; reflexivity).
  exact P.
Qed.
Lemma locked_guarded : forall bld dflt user alive c f t ms l o w b os u k n us,
  f_skip f = false -> is_sync c f = true -> is_lazy c f = false -> needs_lock c f = true ->
  field_type c f = GOk t -> field_methods c f = GOk ms ->
  (s_is_ref_counted (c_args c) = true -> alive = true) ->
  only_calls (works c f) l = true -> rep t o = Some w ->
  spec_run bld dflt (view_of c f) l (mk_ust o [] b) = Some (os, u) ->
  works c f k = true -> sensible (view_of c f) (ACall k n us) = true ->
  exists iu, impl_run bld (is_fallible c f) alive dflt user ms l (fresh w b) = Some (os, iu) /\
    let act := impl_act bld (is_fallible c f) alive dflt user ms (ACall k n us) iu in
    if conflicting k (map fst (i_guards iu))
    then act = Some (OWait, iu)
    else exists an iu', act = Some (ORet an, iu').
Proof.
  intros bld dflt user alive c f t ms l o w b os u k n us Hsk Hsy Hla Him Ht Hm Ha Hl Hr E Hw Hse.
  destruct (guarded_runs bld dflt user alive c f t ms l o w b os u k n us) as (iu & R & P); auto.
  exists iu. split; [exact R|]. intros act.
  replace (v_disc (view_of c f)) with Blocking in P
    by (unfold view_of; rewrite Hsy; cbn; rewrite Hla, Him; reflexivity).
  exact P.
Qed.
Lemma only_lock_predicate : forall c f k, asked c f k = true ->
  (if is_sync c f then sync_well_typed (settings_of c f) k
   else plain_well_typed (settings_of c f) k) = true ->
  works c f k = false ->
  k = KPredicate /\ is_sync c f = true /\ is_lazy c f = false /\ needs_lock c f = true /\
  is_fallible c f = true.
Proof.
  intros c f k Ha Hw H. unfold works in H. rewrite Ha, Hw in H. cbn [andb] in H.
  unfold meant in H. destruct k; try discriminate H. cbn in H. split; [reflexivity|].
  destruct (is_sync c f), (is_lazy c f), (needs_lock c f), (is_fallible c f); try discriminate H. auto.
Qed.
