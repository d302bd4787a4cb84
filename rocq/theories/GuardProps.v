(** Property C85: used by any number of activities, FXProxySync and FXProxyAsync are the
    cell with guards of GuardCell.v. *)
From Coq Require Import List Bool Arith Lia.
From Verif Require Import ProxyTypes AtomicCell GuardCell GuardFacts.
From Verif Require SyncProxyModel SyncProxyInv SyncGuards SyncAlone AsyncProxyModel AsyncProxyInv AsyncGuards AsyncAlone
  SyncProxyProps AsyncProxyProps.
Import ListNotations.

(** ** C85: whatever the schedule, the calls and returns are those of the cell, with the
    outcomes of the builder that were seen, in their order; a run of the builder that has
    ended has taken effect, except perhaps the last one. *)
Theorem C85_sync_guards : forall V E (ov : option V) (l : list (SyncProxyModel.action V E)) s t bld,
  SyncProxyModel.run (SyncProxyModel.init ov) l = Some (s, t) -> oracle bld t ->
  exists c x, gruns false false bld (ginit ov) (visible t) (c, x) /\
    g_runs c <= length (ends t) <= S (g_runs c).
Proof.
  intros V E ov l s t bld H O.
  destruct (SyncGuards.sim_run bld l 0 _ _ _ _ _ (SyncGuards.rel_init bld ov) H O) as (c & x & G & R).
  exists c, x. split; [exact G|]. exact (SyncGuards.runs_counted _ _ _ _ _ R).
Qed.
Print Assumptions C85_sync_guards.

Theorem C85_async_guards : forall V E (ov : option V) (l : list (AsyncProxyModel.action V E)) s t bld,
  AsyncProxyModel.run (AsyncProxyModel.init ov) l = Some (s, t) -> oracle bld t ->
  exists c x, gruns true true bld (ginit ov) (visible t) (c, x) /\
    g_runs c <= length (ends t) <= S (g_runs c).
Proof.
  intros V E ov l s t bld H O.
  destruct (AsyncGuards.sim_run bld l 0 _ _ _ _ _ (AsyncGuards.rel_init bld ov) H O) as (c & x & G & R).
  exists c, x. split; [exact G|]. exact (AsyncGuards.runs_counted _ _ _ _ _ R).
Qed.
Print Assumptions C85_async_guards.

(** The schedules of SyncProxyProps.v and AsyncProxyProps.v, the latter with calls that
    are abandoned. *)
Definition demo_bld (n : nat) : outcome nat nat := BOk (7 + n).
Example C85_sync_case :
  exists s, SyncProxyModel.run (SyncProxyModel.init None) SyncProxyProps.demo = Some (s, SyncProxyProps.demo_events) /\
    ends SyncProxyProps.demo_events = [BOk 7; BOk 8] /\ oracle demo_bld SyncProxyProps.demo_events /\
    In (EvRet 1 (RVal (Some 7))) (visible SyncProxyProps.demo_events).
Proof.
  eexists. split; [vm_compute; reflexivity|]. split; [reflexivity|]. split; [|vm_compute; auto 20].
  intros [|[|[|i]]] b H; vm_compute in H; try (destruct i); vm_compute in *; congruence.
Qed.
Example C85_async_case :
  exists s, AsyncProxyModel.run (AsyncProxyModel.init None) AsyncProxyProps.demo = Some (s, AsyncProxyProps.demo_events) /\
    ends AsyncProxyProps.demo_events = [BOk 7] /\ oracle demo_bld AsyncProxyProps.demo_events /\
    In (EvRet 1 RCancelled) (visible AsyncProxyProps.demo_events).
Proof.
  eexists. split; [vm_compute; reflexivity|]. split; [reflexivity|]. split; [|vm_compute; auto 20].
  intros [|[|i]] b H; vm_compute in H; try (destruct i); vm_compute in *; congruence.
Qed.

(** ** C85, the other direction: a call made while all others rest (with or without guards)
    returns, by its own steps, exactly if the cell can answer it, and does to memory what the
    cell does; otherwise it waits for the others.  (Copying and printing wait for writers.) *)

Theorem C85_sync_alone : forall V E (ov : option V) (l0 : list (SyncProxyModel.action V E)) s t0 bld a h o c' h' r,
  SyncProxyModel.run (SyncProxyModel.init ov) l0 = Some (s, t0) -> SyncAlone.at_rest s -> SyncProxyModel.pcs s a = SyncProxyModel.Hold h ->
  (o = OClone \/ o = ODebug -> SyncProxyModel.lw s = None) ->
  effect false bld a h o (mkg (SyncProxyModel.value s) (SyncProxyModel.lr s) (SyncProxyModel.lw s) (length (ends t0))) = Some (c', h', r) ->
  exists l s' t, Forall (SyncAlone.own a) l /\
    SyncProxyModel.run s (SyncProxyModel.ACall a o :: l) = Some (s', EvCall a o :: t ++ [EvRet a r]) /\
    (forall b q, ~ In (EvRet b q) t) /\
    (forall b, SyncProxyModel.pcs s' b = if Nat.eqb b a then SyncProxyModel.Hold h' else SyncProxyModel.pcs s b) /\
    mkg (SyncProxyModel.value s') (SyncProxyModel.lr s') (SyncProxyModel.lw s') (g_runs c') = c' /\
    ends t = map bld (seq (length (ends t0)) (g_runs c' - length (ends t0))) /\ length (ends t0) <= g_runs c'.
Proof.
  intros V E ov l0 s t0 bld a h o c' h' r H0. intros.
  eapply SyncAlone.alone_answers; eauto. eapply SyncProxyInv.inv_run; [apply SyncProxyInv.inv_init|exact H0].
Qed.
Print Assumptions C85_sync_alone.
Theorem C85_sync_waits : forall V E (ov : option V) (l0 : list (SyncProxyModel.action V E)) s t0 (bld : nat -> outcome V E) n a h o l s' t,
  SyncProxyModel.run (SyncProxyModel.init ov) l0 = Some (s, t0) -> SyncAlone.at_rest s -> SyncProxyModel.pcs s a = SyncProxyModel.Hold h ->
  callable h o = true ->
  effect false bld a h o (mkg (SyncProxyModel.value s) (SyncProxyModel.lr s) (SyncProxyModel.lw s) n) = None ->
  Forall (SyncAlone.own a) l -> SyncProxyModel.run s (SyncProxyModel.ACall a o :: l) = Some (s', t) -> forall b r, ~ In (EvRet b r) t.
Proof.
  intros V E ov l0 s t0 bld n a h o l s' t H0. intros.
  eapply SyncAlone.alone_waits; eauto. eapply SyncProxyInv.inv_run; [apply SyncProxyInv.inv_init|exact H0].
Qed.
Print Assumptions C85_sync_waits.

Theorem C85_async_alone : forall V E (ov : option V) (l0 : list (AsyncProxyModel.action V E)) s t0 bld a h o c' h' r,
  AsyncProxyModel.run (AsyncProxyModel.init ov) l0 = Some (s, t0) -> AsyncAlone.at_rest s -> AsyncProxyModel.pcs s a = AsyncProxyModel.Hold h ->
  (o = OClone \/ o = ODebug -> AsyncProxyModel.lw s = None) ->
  effect true bld a h o (mkg (AsyncProxyModel.value s) (AsyncProxyModel.lr s) (AsyncProxyModel.lw s) (length (ends t0))) = Some (c', h', r) ->
  exists l s' t, Forall (AsyncAlone.own a) l /\
    AsyncProxyModel.run s (AsyncProxyModel.ACall a o :: l) = Some (s', EvCall a o :: t ++ [EvRet a r]) /\
    (forall b q, ~ In (EvRet b q) t) /\
    (forall b, AsyncProxyModel.pcs s' b = if Nat.eqb b a then AsyncProxyModel.Hold h' else AsyncProxyModel.pcs s b) /\
    mkg (AsyncProxyModel.value s') (AsyncProxyModel.lr s') (AsyncProxyModel.lw s') (g_runs c') = c' /\
    ends t = map bld (seq (length (ends t0)) (g_runs c' - length (ends t0))) /\ length (ends t0) <= g_runs c'.
Proof.
  intros V E ov l0 s t0 bld a h o c' h' r H0. intros.
  eapply AsyncAlone.alone_answers; eauto. eapply AsyncProxyInv.inv_run; [apply AsyncProxyInv.inv_init|exact H0].
Qed.
Print Assumptions C85_async_alone.
Theorem C85_async_waits : forall V E (ov : option V) (l0 : list (AsyncProxyModel.action V E)) s t0 (bld : nat -> outcome V E) n a h o l s' t,
  AsyncProxyModel.run (AsyncProxyModel.init ov) l0 = Some (s, t0) -> AsyncAlone.at_rest s -> AsyncProxyModel.pcs s a = AsyncProxyModel.Hold h ->
  callable h o = true ->
  effect true bld a h o (mkg (AsyncProxyModel.value s) (AsyncProxyModel.lr s) (AsyncProxyModel.lw s) n) = None ->
  Forall (AsyncAlone.own_or_cancel a) l -> AsyncProxyModel.run s (AsyncProxyModel.ACall a o :: l) = Some (s', t) -> forall b r, In (EvRet b r) t -> r = RCancelled.
Proof.
  intros V E ov l0 s t0 bld n a h o l s' t H0. intros.
  eapply AsyncAlone.alone_waits; eauto. eapply AsyncProxyInv.inv_run; [apply AsyncProxyInv.inv_init|exact H0].
Qed.
Print Assumptions C85_async_waits.

(** Activity 1 keeps a guard for reading; to read again is possible in the sync container
    and has to wait in the async one, to write has to wait in both. *)
Example C85_alone_case :
  (exists (s : SyncProxyModel.st nat nat) t, SyncProxyModel.run (SyncProxyModel.init (Some 4))
     [SyncProxyModel.ACall 1 ORead; SyncProxyModel.AStep 1; SyncProxyModel.AStep 1; SyncProxyModel.AStep 1;
      SyncProxyModel.AStep 1; SyncProxyModel.AStep 1] = Some (s, t) /\ SyncAlone.at_rest s /\
   effect false demo_bld 2 HNone ORead (mkg (SyncProxyModel.value s) (SyncProxyModel.lr s) (SyncProxyModel.lw s) 0)
     = Some (mkg (Some 4) [2; 1] None 0, HR, RGuard 4) /\
   effect false demo_bld 2 HNone OReadMut (mkg (SyncProxyModel.value s) (SyncProxyModel.lr s) (SyncProxyModel.lw s) 0)
     = None) /\
  (exists (s : AsyncProxyModel.st nat nat) t, AsyncProxyModel.run (AsyncProxyModel.init (Some 4))
     [AsyncProxyModel.ACall 1 ORead; AsyncProxyModel.AStep 1; AsyncProxyModel.AStep 1; AsyncProxyModel.AStep 1;
      AsyncProxyModel.AStep 1; AsyncProxyModel.AStep 1] = Some (s, t) /\ AsyncAlone.at_rest s /\
   effect true demo_bld 2 HNone ORead (mkg (AsyncProxyModel.value s) (AsyncProxyModel.lr s) (AsyncProxyModel.lw s) 0)
     = None /\
   effect true demo_bld 1 HR GGet (mkg (AsyncProxyModel.value s) (AsyncProxyModel.lr s) (AsyncProxyModel.lw s) 0)
     = Some (mkg (Some 4) [1] None 0, HR, RVal (Some 4))).
Proof.
  split; eexists _, _; (split; [vm_compute; reflexivity|]); (split; [intros [|[|b]]; vm_compute; eauto|]); split; reflexivity.
Qed.
