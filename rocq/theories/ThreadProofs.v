(** The emitted methods of a lazy field over either container. *)
From Coq Require Import List Bool String Arith Lia.
From Verif Require Import ProxyTypes ArgsModel CtxModel AtomicCell GuardCell GuardFacts RustAst CommonGen SyncGen StructGen CodegenSpec CodegenProofs
  FieldSpec FieldRun FieldProofs FieldStruct ThreadSpec ThreadModel ThreadScripts ThreadSim ThreadRun.
From Verif Require SyncProxyModel SyncProxyProofs SyncGuards AsyncProxyModel AsyncProxyProofs AsyncGuards.
Import ListNotations.

(** ** The containers *)
Lemma sync_told s y s' t : sync_box s y = Some (s', t) ->
  match y with
  | BCall a o => t = [EvCall a o]
  | _ => (visible t = [] /\ answer_for (actor y) t = None) \/ exists r, t = [EvRet (actor y) r]
  end.
Proof.
  destruct y as [a o|a|a b|a]; cbn [sync_box SyncProxyModel.step actor]; intros H.
  - destruct (SyncProxyModel.pcs s a); try discriminate H. destruct (SyncProxyModel.enter h o); [|discriminate H].
    injection H as <- <-. reflexivity.
  - unfold SyncProxyModel.step_code in H.
    repeat match type of H with context [match ?z with _ => _ end] => destruct z; try discriminate H end;
      injection H as <- <-; cbn; eauto.
  - destruct (SyncProxyModel.pcs s a); try discriminate H. injection H as <- <-. cbn; auto.
  - discriminate H.
Qed.
Lemma async_told s y s' t : async_box s y = Some (s', t) ->
  match y with
  | BCall a o => t = [EvCall a o]
  | _ => (visible t = [] /\ answer_for (actor y) t = None) \/ exists r, t = [EvRet (actor y) r]
  end.
Proof.
  destruct y as [a o|a|a b|a]; cbn [async_box AsyncProxyModel.step actor]; intros H.
  - destruct (AsyncProxyModel.pcs s a); try discriminate H. destruct (AsyncProxyModel.enter h o); [|discriminate H].
    injection H as <- <-. reflexivity.
  - unfold AsyncProxyModel.step_code in H.
    repeat match type of H with context [match ?z with _ => _ end] => destruct z; try discriminate H end;
      injection H as <- <-; cbn; eauto.
  - destruct (AsyncProxyModel.pcs s a); try discriminate H. injection H as <- <-. cbn; auto.
  - destruct (AsyncProxyModel.cancel (AsyncProxyModel.pcs s a)); try discriminate H. injection H as <- <-. cbn; auto.
Qed.

Lemma sync_idle bld n (s : SyncProxyModel.st nat nat) c x a h : SyncGuards.rel bld n s c x -> x a = GIdle h -> SyncProxyModel.pcs s a = SyncProxyModel.Hold h.
Proof.
  intros R E. pose proof (SyncGuards.r_at _ _ _ _ _ R a) as A. rewrite E in A.
  destruct (SyncProxyModel.pcs s a) eqn:P; cbn in A; unfold SyncGuards.got in A; try discriminate A; try congruence;
    try destruct A as [A|A]; try discriminate A; destruct A as (? & _ & A);
    match type of A with context [match ?z with _ => _ end] => destruct z end; discriminate A.
Qed.
Lemma sync_busy bld n (s : SyncProxyModel.st nat nat) c x a : SyncGuards.rel bld n s c x -> (forall h, SyncProxyModel.pcs s a <> SyncProxyModel.Hold h) <-> (forall h, x a <> GIdle h).
Proof.
  intros R. split; intros N h E.
  - exact (N h (sync_idle _ _ _ _ _ _ _ R E)).
  - pose proof (SyncGuards.r_at _ _ _ _ _ R a) as A. rewrite E in A. exact (N h A).
Qed.
Lemma sync_ready bld n (s : SyncProxyModel.st nat nat) c x a h o : SyncGuards.rel bld n s c x -> x a = GIdle h -> callable h o = true -> sync_box s (BCall a o) <> None.
Proof.
  intros R E C. apply (sync_idle _ _ _ _ _ _ _ R) in E. unfold sync_box. cbn. rewrite E. destruct h, o; discriminate C || discriminate.
Qed.
Lemma sync_moves bld n (s : SyncProxyModel.st nat nat) c x a : SyncGuards.rel bld n s c x -> (forall h, x a <> GIdle h) ->
  (exists b, (forall h, x b <> GIdle h) /\ sync_box s (BStep b) <> None) \/
  (exists b, (forall h, x b <> GIdle h) /\ forall out, sync_box s (BBuilt b out) <> None) \/
  (exists b h, x b = GIdle h /\ h <> HNone).
Proof.
  intros R N0. pose proof (proj2 (sync_busy _ _ _ _ _ a R) N0) as N.
  destruct (SyncProxyProofs.moves s a (SyncGuards.r_inv _ _ _ _ _ R) N) as [(b & s' & t & B)|[(b & B)|(b & h & P & Nh)]].
  - left. exists b. split; [|unfold sync_box; rewrite B; discriminate].
    apply (proj1 (sync_busy _ _ _ _ _ b R)). intros h P. cbn in B. unfold SyncProxyModel.step_code in B. rewrite P in B. discriminate B.
  - right. left. exists b. split; [|intros out; destruct (B out) as (s' & t & Bo); unfold sync_box; rewrite Bo; discriminate].
    apply (proj1 (sync_busy _ _ _ _ _ b R)). intros h P. destruct (B BPanic) as (s' & t & Bo). cbn in Bo. rewrite P in Bo. discriminate Bo.
  - right. right. exists b, h. split; [|exact Nh]. pose proof (SyncGuards.r_at _ _ _ _ _ R b) as A. rewrite P in A. exact A.
Qed.
Lemma async_idle bld n (s : AsyncProxyModel.st nat nat) c x a h : AsyncGuards.rel bld n s c x -> x a = GIdle h -> AsyncProxyModel.pcs s a = AsyncProxyModel.Hold h.
Proof.
  intros R E. pose proof (AsyncGuards.r_at _ _ _ _ _ R a) as A. rewrite E in A.
  destruct (AsyncProxyModel.pcs s a) eqn:P; cbn in A; unfold AsyncGuards.got in A; try discriminate A; try congruence;
    try destruct A as [A|A]; try discriminate A; destruct A as (? & _ & A);
    match type of A with context [match ?z with _ => _ end] => destruct z end; discriminate A.
Qed.
Lemma async_busy bld n (s : AsyncProxyModel.st nat nat) c x a : AsyncGuards.rel bld n s c x -> (forall h, AsyncProxyModel.pcs s a <> AsyncProxyModel.Hold h) <-> (forall h, x a <> GIdle h).
Proof.
  intros R. split; intros N h E.
  - exact (N h (async_idle _ _ _ _ _ _ _ R E)).
  - pose proof (AsyncGuards.r_at _ _ _ _ _ R a) as A. rewrite E in A. exact (N h A).
Qed.
Lemma async_ready bld n (s : AsyncProxyModel.st nat nat) c x a h o : AsyncGuards.rel bld n s c x -> x a = GIdle h -> callable h o = true -> async_box s (BCall a o) <> None.
Proof.
  intros R E C. apply (async_idle _ _ _ _ _ _ _ R) in E. unfold async_box. cbn. rewrite E. destruct h, o; discriminate C || discriminate.
Qed.
Lemma async_moves bld n (s : AsyncProxyModel.st nat nat) c x a : AsyncGuards.rel bld n s c x -> (forall h, x a <> GIdle h) ->
  (exists b, (forall h, x b <> GIdle h) /\ async_box s (BStep b) <> None) \/
  (exists b, (forall h, x b <> GIdle h) /\ forall out, async_box s (BBuilt b out) <> None) \/
  (exists b h, x b = GIdle h /\ h <> HNone).
Proof.
  intros R N0. pose proof (proj2 (async_busy _ _ _ _ _ a R) N0) as N.
  destruct (AsyncProxyProofs.moves s a (AsyncGuards.r_inv _ _ _ _ _ R) N) as [(b & s' & t & B)|[(b & B)|(b & h & P & Nh)]].
  - left. exists b. split; [|unfold async_box; rewrite B; discriminate].
    apply (proj1 (async_busy _ _ _ _ _ b R)). intros h P. cbn in B. unfold AsyncProxyModel.step_code in B. rewrite P in B. discriminate B.
  - right. left. exists b. split; [|intros out; destruct (B out) as (s' & t & Bo); unfold async_box; rewrite Bo; discriminate].
    apply (proj1 (async_busy _ _ _ _ _ b R)). intros h P. destruct (B BPanic) as (s' & t & Bo). cbn in Bo. rewrite P in Bo. discriminate Bo.
  - right. right. exists b, h. split; [|exact Nh]. pose proof (AsyncGuards.r_at _ _ _ _ _ R b) as A. rewrite P in A. exact A.
Qed.

(** ** Which methods are async *)
Lemma async_method g ms m : sync_methods g = GOk ms -> In m ms -> m_async m = true -> g_async g = true.
Proof.
  intros H Hin Ma. destruct (g_async g) eqn:As; [reflexivity|exfalso].
  unfold sync_methods in H. destruct (g_skip g); [injection H as <-; destruct Hin|].
  bind_in H. injection H as <-. rewrite !in_app_iff in Hin.
  unfold sync_accessor, sync_accessor_mut, sync_reader, sync_writer, sync_setter, sync_clearer, sync_predicate, reader_method,
    fallible_return_type in *.
  rewrite As in *.
  destruct Hin as [Hin|[Hin|[Hin|[Hin|[Hin|[Hin|Hin]]]]]].
  Ltac go E Hin Ma :=
    repeat match type of E with
    | context [if ?z then _ else _] => destruct z
    | context [match ?z with _ => _ end] => destruct z
    end; bind_in E; try discriminate E; try (injection E as <-); cbn in Hin; try tauto;
    destruct Hin as [<-|[]]; discriminate Ma.
  - go E Hin Ma.
  - go E0 Hin Ma.
  - go E1 Hin Ma.
  - go E2 Hin Ma.
  - go E3 Hin Ma.
  - go E4 Hin Ma.
  - go E5 Hin Ma.
Qed.

(** ** The field *)
Section Field.
Variables (c : sctx) (f : field).
Variable bld : nat -> outcome nat nat.
Variables (dflt : nat) (alive : bool) (ms : list mdecl).
Hypothesis Sy : is_sync c f = true.
Hypothesis La : is_lazy c f = true.
Hypothesis Sk : f_is_skipped f = false.
Hypothesis M : field_methods c f = GOk ms.
Hypothesis Al : s_is_ref_counted (c_args c) = true -> alive = true.
Hypothesis Wk : forall k, In k (map m_kind ms) -> works c f k = true.

Lemma lazy_view : view_of c f = mk_view (Lazy (is_fallible c f)) (if is_async c f then Solo else Blocking)
  (negb (is_clone c f || is_copy c f)).
Proof. unfold view_of. rewrite Sy. unfold sync_view. cbn. rewrite La. reflexivity. Qed.
Lemma methods_std m n : In m ms -> modelled (m_kind m) = true /\
  script (is_async c f) alive m n = std (is_fallible c f) (negb (is_clone c f || is_copy c f)) (m_kind m) n.
Proof.
  intros Hin. pose proof M as M'. unfold field_methods in M'. rewrite Sy in M'.
  apply (std_ok (cfg_of c f) alive ms m n La Sk Al M' Hin).
  pose proof (Wk _ (in_map m_kind _ _ Hin)) as W. unfold works in W. rewrite Sy in W.
  apply andb_true_iff in W as [W _]. apply andb_true_iff in W as [_ W]. exact W.
Qed.
Lemma sync_sim n s cl x y s' t : SyncGuards.rel bld n s cl x -> sync_box s y = Some (s', t) ->
  (forall i b, nth_error (ends t) i = Some b -> bld (n + i) = b) ->
  exists c' x', gruns false false bld (cl, x) (visible t) (c', x') /\ SyncGuards.rel bld (n + List.length (ends t)) s' c' x'.
Proof.
  intros R E Or. destruct y as [a o|a|a b|a]; cbn [sync_box] in E; [| | |discriminate E];
    exact (SyncGuards.sim_step bld n s cl x _ s' t R E Or).
Qed.
Lemma async_sim n s cl x y s' t : AsyncGuards.rel bld n s cl x -> async_box s y = Some (s', t) ->
  (forall i b, nth_error (ends t) i = Some b -> bld (n + i) = b) ->
  exists c' x', gruns true true bld (cl, x) (visible t) (c', x') /\ AsyncGuards.rel bld (n + List.length (ends t)) s' c' x'.
Proof. intros R E Or. exact (AsyncGuards.sim_step bld n s cl x _ s' t R E Or). Qed.

Lemma async_start o : linked true true (is_fallible c f) (negb (is_clone c f || is_copy c f)) _ (AsyncGuards.rel bld) 0
  (mk_mstate (AsyncProxyModel.init o) (fun _ => Idle)) (wstart o).
Proof. exists (mkg o [] None 0), (fun _ => GIdle HNone). split; [apply AsyncGuards.rel_init|]. apply tie_init; reflexivity. Qed.
Lemma sync_start o : linked false false (is_fallible c f) (negb (is_clone c f || is_copy c f)) _ (SyncGuards.rel bld) 0
  (mk_mstate (SyncProxyModel.init o) (fun _ => Idle)) (wstart o).
Proof. exists (mkg o [] None 0), (fun _ => GIdle HNone). split; [apply SyncGuards.rel_init|]. apply tie_init; reflexivity. Qed.
Lemma async_linked o l s h t : is_async c f = true ->
  mrun _ async_box ms true alive (mk_mstate (AsyncProxyModel.init o) (fun _ => Idle)) l = Some (s, h, t) -> oracle bld t ->
  exists w, wruns bld dflt (view_of c f) true (wstart o) h w /\
    linked true true (is_fallible c f) (negb (is_clone c f || is_copy c f)) _ (AsyncGuards.rel bld) (List.length (ends t)) s w.
Proof.
  intros As Rn O. rewrite lazy_view. rewrite As. pose proof methods_std as STD. rewrite As in STD.
  exact (mrun_linked true true (is_fallible c f) (negb (is_clone c f || is_copy c f)) bld dflt _ async_box ms true alive
    STD (fun _ _ _ => eq_refl) (AsyncGuards.rel bld) async_sim async_told l 0 _ (wstart o) _ _ _ (async_start o) Rn O).
Qed.
Lemma sync_linked o l s h t : is_async c f = false ->
  mrun _ sync_box ms false alive (mk_mstate (SyncProxyModel.init o) (fun _ => Idle)) l = Some (s, h, t) -> oracle bld t ->
  exists w, wruns bld dflt (view_of c f) false (wstart o) h w /\
    linked false false (is_fallible c f) (negb (is_clone c f || is_copy c f)) _ (SyncGuards.rel bld) (List.length (ends t)) s w.
Proof.
  intros As Rn O. rewrite lazy_view. pose proof M as M'. unfold field_methods in M'. rewrite Sy in M'.
  pose proof methods_std as STD. pose proof (fun m => async_method _ _ m M') as LZ. change (g_async (cfg_of c f)) with (is_async c f) in LZ.
  rewrite As in *.
  exact (mrun_linked false false (is_fallible c f) (negb (is_clone c f || is_copy c f)) bld dflt _ sync_box ms false alive
    STD LZ (SyncGuards.rel bld) sync_sim sync_told l 0 _ (wstart o) _ _ _ (sync_start o) Rn O).
Qed.

Theorem threads o l th h t : together (is_async c f) alive ms o l = Some (th, h, t) -> oracle bld t ->
  (exists w, wruns bld dflt (view_of c f) (is_async c f) (wstart o) h w) /\ forall a, th a <> Doing Wrong.
Proof.
  intros H O. unfold together in H. assert (As : is_async c f = true \/ is_async c f = false) by (destruct (is_async c f); auto).
  destruct As as [As|As]; rewrite As in *;
    (destruct (mrun _ _ _ _ _ _ l) as [[[s h0] t0]|] eqn:Rn; [|discriminate H]); injection H as <- <- <-.
  - destruct (async_linked _ _ _ _ _ As Rn O) as (w & W & L). split; [eauto|]. intros a. eapply linked_sane, L.
  - destruct (sync_linked _ _ _ _ _ As Rn O) as (w & W & L). split; [eauto|]. intros a. eapply linked_sane, L.
Qed.
Theorem threads_move o l th h t a : together (is_async c f) alive ms o l = Some (th, h, t) -> oracle bld t -> th a <> Idle ->
  let next x := together (is_async c f) alive ms o (l ++ [x]) in
  (exists b, next (MGo b) <> None \/ next (MStep b) <> None) \/
  (exists b, forall out, next (MBuilt b out) <> None) \/
  (exists b g, th b = Keeping g).
Proof.
  intros H O N next. unfold next, together in *. pose proof methods_std as STD. assert (As : is_async c f = true \/ is_async c f = false) by (destruct (is_async c f); auto).
  destruct As as [As|As]; rewrite As in *;
    (destruct (mrun _ _ _ _ _ _ l) as [[[s h0] t0]|] eqn:Rn; [|discriminate H]); injection H as <- <- <-.
  - assert (K : forall y, mstep _ async_box ms true alive s y <> None ->
       match mrun _ async_box ms true alive (mk_mstate (AsyncProxyModel.init o) (fun _ => Idle)) (l ++ [y]) with
       | Some (s, h, t) => Some (m_thr s, h, t) | None => None end <> None).
    { intros y Ny. pose proof (mrun_snoc _ _ _ _ _ _ _ _ _ _ _ Rn Ny) as Q. destruct (mrun _ _ _ _ _ _ (l ++ [y])) as [[[? ?] ?]|]; [discriminate|congruence]. }
    destruct (async_linked _ _ _ _ _ As Rn O) as (w & W & L).
    destruct (goes _ _ _ _ _ _ _ _ _ STD _ (async_ready bld) (async_moves bld) _ _ _ a L N) as [(b & [B|B])|[(b & B)|B]].
    + left. exists b. left. apply K, B.
    + left. exists b. right. apply K, B.
    + right. left. exists b. intros out. apply K, B.
    + right. right. exact B.
  - assert (K : forall y, mstep _ sync_box ms false alive s y <> None ->
       match mrun _ sync_box ms false alive (mk_mstate (SyncProxyModel.init o) (fun _ => Idle)) (l ++ [y]) with
       | Some (s, h, t) => Some (m_thr s, h, t) | None => None end <> None).
    { intros y Ny. pose proof (mrun_snoc _ _ _ _ _ _ _ _ _ _ _ Rn Ny) as Q. destruct (mrun _ _ _ _ _ _ (l ++ [y])) as [[[? ?] ?]|]; [discriminate|congruence]. }
    destruct (sync_linked _ _ _ _ _ As Rn O) as (w & W & L).
    destruct (goes _ _ _ _ _ _ _ _ _ STD _ (sync_ready bld) (sync_moves bld) _ _ _ a L N) as [(b & [B|B])|[(b & B)|B]].
    + left. exists b. left. apply K, B.
    + left. exists b. right. apply K, B.
    + right. left. exists b. intros out. apply K, B.
    + right. right. exact B.
Qed.
End Field.

(** The builder that was seen. *)
Definition seen_builds (t : list (event nat nat)) (i : nat) : outcome nat nat := nth i (ends t) BPanic.
Lemma seen_oracle t : oracle (seen_builds t) t.
Proof. intros i b H. unfold seen_builds. apply nth_error_nth, H. Qed.
