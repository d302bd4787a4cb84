(** What is left of a shared object when its users are gone is what the record holds; the
    next scene begins with it. *)
From Coq Require Import List Bool String Arith Lia.
From Verif Require Import ProxyTypes ArgsModel CtxModel RustAst RustSem CommonGen StructGen CodegenSpec FieldSpec FieldRun FieldSeq FieldStruct GuardCell
  ThreadSpec ThreadModel ThreadSim ThreadRun ThreadProofs LockedModel LockedProofs ObjectSpec ObjectModel ObjectProofs ObjectParts ObjectRecord EndSpec SerdeModel
  LifeSpec LifeModel.
From Verif Require SyncProxyModel AsyncProxyModel SyncProxyInv AsyncProxyInv SyncGuards AsyncGuards LockedSim.
Import ListNotations.
Open Scope list_scope.

(** ** Contents and storage *)
Lemma rep_content t : forall k w, rep t k = Some w -> content_in t w = Some k.
Proof.
  induction t; intros k w H; cbn in H; try discriminate H.
  - destruct k; [injection H as <-; reflexivity|discriminate H].
  - destruct t; try discriminate H. injection H as <-. destruct k; reflexivity.
  - destruct t; try discriminate H. injection H as <-. destruct k; reflexivity.
  - destruct (rep t k) as [u|] eqn:E; [|discriminate H]. injection H as <-. cbn. auto.
  - destruct (rep t k) as [u|] eqn:E; [|discriminate H]. injection H as <-. cbn. rewrite Bool.eqb_reflx. auto.
  - injection H as <-. destruct k; cbn; rewrite Bool.eqb_reflx; reflexivity.
Qed.
Lemma content_rep t : forall k w, content_in t w = Some k -> rep t k = Some w.
Proof.
  induction t; intros k w H; try discriminate H.
  - destruct w; try discriminate H. injection H as <-. reflexivity.
  - destruct t; try (destruct w; discriminate H). destruct w; try discriminate H; [|destruct w; try discriminate H]; injection H as <-; reflexivity.
  - destruct t; try (destruct w; discriminate H). destruct w; try discriminate H. destruct o as [[]|]; try discriminate H; injection H as <-; reflexivity.
  - destruct w; try discriminate H. cbn in *. rewrite (IHt _ _ H). reflexivity.
  - destruct w; try discriminate H. cbn in *. destruct (Bool.eqb_spec a a0) as [->|]; [|discriminate H]. rewrite (IHt _ _ H). reflexivity.
  - destruct w; try discriminate H. cbn in *.
    destruct o as [[]|]; try discriminate H; (destruct (Bool.eqb_spec a a0) as [->|]; [|discriminate H]); injection H as <-; reflexivity.
Qed.
Lemma part_from_iff c f w p : part_from c f w = Some p <-> exists k, keeps c f k w /\ part_of c f k = Some p.
Proof.
  unfold part_from, keeps. split.
  - destruct (field_type c f) as [t| |]; try discriminate. destruct (content_in t w) as [k|] eqn:E; [|discriminate]. intros H.
    exists k. split; [|exact H]. exists t. split; [reflexivity|apply content_rep, E].
  - intros (k & (t & T & R) & H). rewrite T, (rep_content _ _ _ R). exact H.
Qed.

(** ** One field *)
Lemma sync_left fl kp bld n m w : linked false false fl kp _ (SyncGuards.rel bld) n m w ->
  (forall a, m_thr m a = Idle) ->
  exists k, left_with w k /\ at_rest (KeptLazy false) (FSync m) = Some (VProxy false (option_map VT k)).
Proof.
  intros (gc & x & R & T) Id. exists (c_val (fst w)).
  assert (A : forall a, x a = GIdle HNone /\ snd w a = WFree).
  { intros a. pose proof (T_at _ _ _ _ _ _ _ _ _ T a) as Ta. rewrite (Id a) in Ta. inversion Ta. auto. }
  assert (P : forall a, SyncProxyModel.pcs (m_box m) a = SyncProxyModel.Hold HNone).
  { intros a. exact (sync_idle _ _ _ _ _ _ _ R (proj1 (A a))). }
  split; [split; [intros a; apply A|reflexivity]|].
  pose proof (SyncGuards.r_inv _ _ _ _ _ R) as V. pose proof (SyncGuards.r_mem _ _ _ _ _ R) as Me.
  assert (W : SyncProxyModel.lw (m_box m) = None).
  { destruct (SyncProxyModel.lw (m_box m)) as [a|] eqn:E; [|reflexivity]. apply (SyncProxyInv.i_w _ V) in E. rewrite (P a) in E. discriminate E. }
  assert (U : SyncProxyModel.lu (m_box m) = None).
  { destruct (SyncProxyModel.lu (m_box m)) as [a|] eqn:E; [|reflexivity]. apply (SyncProxyInv.i_u _ V) in E. rewrite (P a) in E. discriminate E. }
  assert (L : SyncProxyModel.lr (m_box m) = []).
  { destruct (SyncProxyModel.lr (m_box m)) as [|a l] eqn:E; [reflexivity|]. assert (I : In a (SyncProxyModel.lr (m_box m))) by (rewrite E; now left).
    apply (SyncProxyInv.i_r _ V) in I. rewrite (P a) in I. discriminate I. }
  unfold SyncGuards.mem in Me. rewrite W in Me. destruct Me as [Me _].
  rewrite (T_val _ _ _ _ _ _ _ _ _ T), Me. cbn. rewrite W, U, L, (SyncProxyInv.i_b _ V), (SyncProxyInv.i_f _ V W), Bool.eqb_reflx. reflexivity.
Qed.
Lemma async_left fl kp bld n m w : linked true true fl kp _ (AsyncGuards.rel bld) n m w ->
  (forall a, m_thr m a = Idle) ->
  exists k, left_with w k /\ at_rest (KeptLazy true) (FAsync m) = Some (VProxy true (option_map VT k)).
Proof.
  intros (gc & x & R & T) Id. exists (c_val (fst w)).
  assert (A : forall a, x a = GIdle HNone /\ snd w a = WFree).
  { intros a. pose proof (T_at _ _ _ _ _ _ _ _ _ T a) as Ta. rewrite (Id a) in Ta. inversion Ta. auto. }
  assert (P : forall a, AsyncProxyModel.pcs (m_box m) a = AsyncProxyModel.Hold HNone).
  { intros a. exact (async_idle _ _ _ _ _ _ _ R (proj1 (A a))). }
  split; [split; [intros a; apply A|reflexivity]|].
  pose proof (AsyncGuards.r_inv _ _ _ _ _ R) as V. pose proof (AsyncGuards.r_mem _ _ _ _ _ R) as Me.
  assert (W : AsyncProxyModel.lw (m_box m) = None).
  { destruct (AsyncProxyModel.lw (m_box m)) as [a|] eqn:E; [|reflexivity]. apply (AsyncProxyInv.i_w _ V) in E. rewrite (P a) in E. discriminate E. }
  assert (L : AsyncProxyModel.lr (m_box m) = []).
  { destruct (AsyncProxyModel.lr (m_box m)) as [|a l] eqn:E; [reflexivity|]. assert (I : In a (AsyncProxyModel.lr (m_box m))) by (rewrite E; now left).
    apply (AsyncProxyInv.i_r _ V) in I. rewrite (P a) in I. discriminate I. }
  unfold AsyncGuards.mem in Me. rewrite W in Me. destruct Me as [Me _].
  rewrite (T_val _ _ _ _ _ _ _ _ _ T), Me. cbn. rewrite W, L, (AsyncProxyInv.i_b _ V), (AsyncProxyInv.i_f _ V W), Bool.eqb_reflx. reflexivity.
Qed.
Lemma lock_left asy opt kp m w : LockedSim.linked asy opt kp m w -> (forall a, l_thr m a = LIdle) ->
  exists k, left_with w k /\ (opt = false -> k <> None) /\
    at_rest (KeptLocked asy opt) (FLock m) = option_map (VLock asy) (if opt then Some (opt_val k) else option_map VT k).
Proof.
  intros (hold & T & Lk & V & N) Id. exists (c_val (fst w)).
  assert (A : forall a, hold a = None /\ snd w a = WFree).
  { intros a. pose proof (T a) as Ta. rewrite (Id a) in Ta. inversion Ta. auto. }
  split; [split; [intros a; apply A|reflexivity]|]. rewrite V. split; [exact N|].
  assert (W : b_lw (l_box m) = None).
  { destruct (b_lw (l_box m)) as [a|] eqn:E; [|reflexivity]. pose proof (proj1 (LockedSim.k_lw _ _ _ _ _ Lk a) eq_refl) as Z.
    rewrite (proj1 (A a)) in Z. discriminate Z. }
  assert (L : b_lr (l_box m) = []).
  { destruct (b_lr (l_box m)) as [|a l] eqn:E; [reflexivity|]. assert (I : In a (a :: l)) by (now left).
    apply (LockedSim.k_lr _ _ _ _ _ Lk) in I. rewrite (proj1 (A a)) in I. discriminate I. }
  cbn. rewrite W, L. destruct opt; [reflexivity|]. destruct (b_val (l_box m)) as [n|]; [reflexivity|]. exfalso. now apply N.
Qed.

Lemma open_left ms p o s w : open_tied ms p o s w -> (forall a, place_of s a = Free) ->
  left_with w o /\ at_rest KeptOpen s = Some (p_value p).
Proof.
  intros (th & x & -> & -> & T) Fr. split; [|reflexivity]. split; [|reflexivity]. intros a. cbn. pose proof (Fr a) as Q. pose proof (T a) as Ta.
  cbn in Q. destruct Ta; [reflexivity|discriminate Q..].
Qed.
Lemma store_rep t s : store_of t = Some s ->
  match s with
  | KeptLazy a => forall k, rep t k = Some (VProxy a (option_map VT k))
  | KeptLocked a op => forall k, rep t k = option_map (VLock a) (if op then Some (opt_val k) else option_map VT k)
  | KeptOpen => True
  end.
Proof.
  intros H. destruct t; try discriminate H.
  - injection H as <-. exact I.
  - destruct t; try discriminate H. injection H as <-. exact I.
  - cbn in H. destruct t; try discriminate H; [|destruct t; try discriminate H]; injection H as <-; reflexivity.
  - injection H as <-. reflexivity.
Qed.
Section Field.
Variables (c : sctx) (f : field).
Variable bld : nat -> outcome nat nat.
Variables (dflt : nat) (user : string -> nat) (o : option nat) (p : part).
Hypothesis Sk : f_is_skipped f = false.
Hypothesis Po : part_of c f o = Some p.
Hypothesis Wk : forall k, In k (map m_kind (p_methods p)) -> works c f k = true.
Theorem part_left l s h t : part_run dflt user p (part_start p) l = Some (s, h, t) -> oracle bld t -> (forall a, place_of s a = Free) ->
  exists w k v, wruns bld dflt (view_of c f) (is_async c f) (wstart o) h w /\ left_with w k /\
    at_rest (p_store p) s = Some v /\ keeps c f k v.
Proof.
  destruct (part_facts c f o p Po) as (ty & ms & T & M & So & Rp & Pm & Pf & Pc). intros H O Fr.
  assert (Done : forall (w : cellst * (aid -> wstat)) k v, wruns bld dflt (view_of c f) (is_async c f) (wstart o) h w -> left_with w k ->
    at_rest (p_store p) s = Some v -> rep ty k = Some v ->
    exists w k v, wruns bld dflt (view_of c f) (is_async c f) (wstart o) h w /\ left_with w k /\ at_rest (p_store p) s = Some v /\ keeps c f k v).
  { intros w k v W Lf Re Rk. exists w, k, v. split; [exact W|]. split; [exact Lf|]. split; [exact Re|]. exists ty. auto. }
  pose proof (store_rep ty (p_store p) So) as Sr.
  destruct (p_store p) as [[|]|a op|] eqn:Ps; cbn in Sr.
  - destruct (lazy_type c f ty true T So) as (Sy & La & _ & As).
    unfold part_start in H. rewrite Ps, Pc in H. destruct (async_runs_of dflt user p Ps l _ _ _ _ H) as (z & -> & R).
    rewrite Pm in *. destruct (async_linked c f bld dflt true ms Sy La Sk M (fun _ => eq_refl) Wk o l _ _ _ As R O) as (w & W & L).
    destruct (async_left _ _ _ _ _ _ L) as (k & Lf & Re).
    { intros a. specialize (Fr a). cbn in Fr. destruct (m_thr z a); try discriminate Fr. reflexivity. }
    rewrite As in Done. rewrite As. exact (Done w k _ W Lf Re (Sr k)).
  - destruct (lazy_type c f ty false T So) as (Sy & La & _ & As).
    unfold part_start in H. rewrite Ps, Pc in H. destruct (sync_runs_of dflt user p Ps l _ _ _ _ H) as (z & -> & R).
    rewrite Pm in *. destruct (sync_linked c f bld dflt true ms Sy La Sk M (fun _ => eq_refl) Wk o l _ _ _ As R O) as (w & W & L).
    destruct (sync_left _ _ _ _ _ _ L) as (k & Lf & Re).
    { intros a. specialize (Fr a). cbn in Fr. destruct (m_thr z a); try discriminate Fr. reflexivity. }
    rewrite As in Done. rewrite As. exact (Done w k _ W Lf Re (Sr k)).
  - pose proof (store_lock _ _ _ So) as Lo. destruct (locked_type c f ty a op T Lo) as (_ & _ & _ & _ & As & _).
    unfold part_start in H. rewrite Ps, Pc in H. destruct (lock_runs_of dflt user p a op Ps l _ _ _ _ H) as (z & l' & -> & R).
    rewrite Pm in *. pose proof (stored_content c f o p Sk Po ty T Rp) as Hc.
    destruct (LockedSim.moves_linked a op _ bld dflt ms (methods_lstd c f ty a op ms T Lo M Wk) (methods_lazy c f ty a op ms T Lo M) l' _ _ _ _
      (LockedSim.linked_start a op _ bld dflt o (has_start c f ty a op T Lo o Hc)) R) as (w & W & L).
    destruct (lock_left _ _ _ _ _ L) as (k & Lf & N & Re).
    { intros b. specialize (Fr b). cbn in Fr. destruct (l_thr z b); try discriminate Fr. reflexivity. }
    rewrite (locked_view c f ty a op T Lo) in *. rewrite As in Done. rewrite As.
    destruct op.
    + exact (Done w k _ W Lf Re (Sr k)).
    + destruct k as [n|]; [|exfalso; now apply N]. exact (Done w (Some n) _ W Lf Re (Sr (Some n))).
  - rewrite Pm in *.
    destruct (open_runs c f bld dflt user ty ms p o Sk T So M Wk Ps Pf Pm Rp l _ _ _ _ _ (open_start ms p o Ps) H) as (w & W & Tw).
    destruct (open_left _ _ _ _ _ Tw Fr) as [Lf Re]. exact (Done w o _ W Lf Re Rp).
Qed.
End Field.
