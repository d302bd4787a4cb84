(** C76: the sync lazy container on memory that is not sequentially consistent. *)
From Coq Require Import List Bool Arith.
From Verif Require Import ProxyTypes AtomicCell TraceSpec SyncProxyModel SyncProxyInv SyncProxySim SyncProxyProps
  WeakMem WeakFresh WeakSyncModel WeakSpec WeakSyncProofs WeakSyncOrder.
Import ListNotations.

(** No two accesses to the value race. *)
Theorem C76_sync_no_race : forall V E (ov : option V) (l : list (waction V E)) w t,
  wrun (winit ov) l = Some (w, t) -> racy w = false.
Proof.
  intros V E ov l w t H. destruct (wrun_means _ _ _ _ _ (means_init ov) H) as (s & t' & _ & _ & M). apply (m_racy _ _ M).
Qed.
Print Assumptions C76_sync_no_race.
(** Knowing an event is knowing that one event: accesses to the value, and writes of one
    place, have numbers of their own, and nobody knows what has not happened. *)
Theorem C76_sync_events : forall V E (ov : option V) (l : list (waction V E)) w t,
  wrun (winit ov) l = Some (w, t) ->
  NoDup (map fst (flags w)) /\ NoDup (map fst (values w)) /\ NoDup (map fst (log w)) /\
  (forall m, In m (map fst (flags w) ++ map fst (values w) ++ map fst (log w)) -> m < next w) /\
  forall a m, In m (knows w a) -> m < next w.
Proof. exact sync_apart. Qed.
Print Assumptions C76_sync_events.
(** What is seen is what the same schedule shows on sequentially consistent memory, but
    for the answers of the predicate; so all of C01-C03 and C06-C08 hold as well. *)
Theorem C76_sync_same_history : forall V E (ov : option V) (l : list (waction V E)) w t,
  wrun (winit ov) l = Some (w, t) ->
  exists s t', run (init ov) (strong l) = Some (s, t') /\ Forall2 alike t t' /\ cell_history false ov t'.
Proof.
  intros V E ov l w t H. destruct (wrun_means _ _ _ _ _ (means_init ov) H) as (s & t' & R & A & _).
  exists s, t'. split; [exact R|]. split; [exact A|]. eapply C05_linearizable, R.
Qed.
Print Assumptions C76_sync_same_history.
(** The predicate answers what was true at some moment not before the activity that calls
    it last owned the lock, or heard from one that owned it since. *)
Theorem C76_sync_predicate_not_older :
  forall V E (ov : option V) (l0 : list (waction V E)) w0 t0 a l1 w1 t1 b i j l2 w2 t2 x,
  wrun (winit ov) l0 = Some (w0, t0) -> own_of (core w0) a <> Free ->
  wrun w0 l1 = Some (w1, t1) -> In b (heard [a] (tells l1)) ->
  wrun w1 (WDo (ACall b OIsSet) i j :: l2) = Some (w2, t2) -> In (EvRet b (RBool x)) t2 ->
  exists la lb s t, l1 ++ WDo (ACall b OIsSet) i j :: l2 = la ++ lb /\
    run (init ov) (strong (l0 ++ la)) = Some (s, t) /\ flag s = x.
Proof. intros V E. apply predicate_not_older. Qed.
Print Assumptions C76_sync_predicate_not_older.
(** The answers that one activity gets from the predicate never go back in time:
    [flags_along] is what the flag is before, between and after the actions. *)
Theorem C76_sync_predicate_onward : forall V E (ov : option V) (l : list (waction V E)) w t a,
  wrun (winit ov) l = Some (w, t) -> onward (answers a t) (flags_along (init ov) (strong l)).
Proof. intros V E. apply answers_onward. Qed.
Print Assumptions C76_sync_predicate_onward.
(** Nor do they for two activities when the second has heard from the first. *)
Theorem C76_sync_predicate_heard :
  forall V E (ov : option V) (l1 : list (waction V E)) w1 t1 a x l2 w2 t2 b i j l3 w3 t3 y,
  wrun (winit ov) l1 = Some (w1, t1) -> In x (answers a t1) ->
  wrun w1 l2 = Some (w2, t2) -> In b (heard [a] (tells l2)) ->
  wrun w2 (WDo (ACall b OIsSet) i j :: l3) = Some (w3, t3) -> In y (answers b t3) ->
  onward [x; y] (flags_along (init ov) (strong (l1 ++ l2 ++ WDo (ACall b OIsSet) i j :: l3))).
Proof. intros V E. apply heard_onward. Qed.
Print Assumptions C76_sync_predicate_heard.
(** Nothing is lost: what can happen on sequentially consistent memory can happen here. *)
Theorem C76_sync_strong_is_weak : forall V E (ov : option V) (l : list (action V E)) s t,
  run (init ov) l = Some (s, t) -> exists l' w, strong l' = l /\ wrun (winit ov) l' = Some (w, t).
Proof.
  intros V E ov l s t H. eapply strong_is_weak; [|exact H]. split; [apply means_init|reflexivity].
Qed.
Print Assumptions C76_sync_strong_is_weak.

Definition once (a : aid) : waction nat nat := WDo (AStep a) 0 1.
Definition again (a : aid) : waction nat nat := WDo (AStep a) 1 2.
(** Activity 1 reads, its builder makes 7; the guard is kept. *)
Definition C76_read : list (waction nat nat) :=
  [WDo (ACall 1 ORead) 0 0; once 1; once 1; once 1; once 1; once 1; WDo (ABuilt 1 (BOk 7)) 0 0;
   once 1; once 1; once 1; once 1; again 1; again 1].
(** Activity 3 has not heard of it and may still be told that the field is empty. *)
Example C76_case_stale : exists w0 t0 w t,
  wrun (winit None) C76_read = Some (w0, t0) /\ own_of (core w0) 1 = Shared /\
  wrun w0 [WDo (ACall 3 OIsSet) 0 0; once 3; once 3] = Some (w, t) /\
  In (EvRet 1 (RGuard 7)) t0 /\ t = [EvCall 3 OIsSet; EvRet 3 (RBool false)].
Proof. do 4 eexists. split; [vm_compute; reflexivity|]. split; [reflexivity|]. split; [vm_compute; reflexivity|]. vm_compute. auto 10. Qed.
(** Once it has heard from activity 1, even through activity 2, it cannot. *)
Example C76_case_told : exists w0 t0 w1 t1,
  wrun (winit None) C76_read = Some (w0, t0) /\
  wrun w0 [WTell 1 2; WTell 2 3] = Some (w1, t1) /\ In 3 (heard [1] (tells [@WTell nat nat 1 2; WTell 2 3])) /\
  wrun w1 [WDo (ACall 3 OIsSet) 0 0; once 3] = None /\
  option_map snd (wrun w1 [WDo (ACall 3 OIsSet) 0 0; again 3; again 3]) = Some [EvCall 3 OIsSet; EvRet 3 (RBool true)].
Proof.
  do 4 eexists. split; [vm_compute; reflexivity|]. split; [vm_compute; reflexivity|].
  split; [left; reflexivity|]. split; vm_compute; reflexivity.
Qed.
(** Activity 2 clears after the guard is gone; a clone made by activity 3, which was told
    nothing, is empty and says so. *)
Example C76_case_clone : exists w t,
  wrun (winit None) (C76_read ++
    [WDo (ACall 1 GDrop) 0 0; once 1; once 1; WDo (ACall 2 OClear) 0 0; once 2; again 2; again 2; once 2; once 2;
     WDo (ACall 3 OClone) 0 0; once 3; WDo (AStep 3) 2 0; WDo (AStep 3) 2 0; once 3; once 3]) = Some (w, t) /\
  In (EvRet 2 (RVal (Some 7))) t /\ In (EvRet 3 (RClone None false true)) t /\ racy w = false /\ length (log w) = 6.
Proof. do 2 eexists. split; [vm_compute; reflexivity|]. vm_compute. auto 40. Qed.
(** A race would be seen: a reader that got the lock without what the lock passes on. *)
Example C76_case_race : exists w' t,
  wcode (mkw (mkst (Some 7) true true None None [3] (fun _ => D_Val)) [(0, false); (2, true)] [(0, None); (1, Some 7)]
           (fun _ => [0]) [0; 1; 2] [0] 3 [(1, true)] false : wst nat nat) 3 0 0 = Some (w', t) /\ racy w' = true.
Proof. do 2 eexists. split; vm_compute; reflexivity. Qed.
(** Activity 4 is told that the field is empty, later that it is not; from then on it
    cannot be told again that it is empty, and neither can activity 3 after it has heard
    from activity 4. *)
Definition C76_asks : list (waction nat nat) :=
  C76_read ++ [WDo (ACall 4 OIsSet) 0 0; once 4; once 4; WDo (ACall 4 OIsSet) 0 0; again 4; again 4].
Example C76_case_onward : exists w1 t1 w2 t2,
  wrun (winit None) C76_asks = Some (w1, t1) /\ answers 4 t1 = [false; true] /\
  wrun w1 [WDo (ACall 4 OIsSet) 0 0; once 4] = None /\
  wrun w1 [WTell 4 3] = Some (w2, t2) /\ In 3 (heard [4] (tells [@WTell nat nat 4 3])) /\
  wrun w2 [WDo (ACall 3 OIsSet) 0 0; once 3] = None /\
  option_map (fun r => answers 3 (snd r)) (wrun w2 [WDo (ACall 3 OIsSet) 0 0; again 3; again 3]) = Some [true].
Proof.
  do 4 eexists. split; [vm_compute; reflexivity|]. split; [reflexivity|]. split; [vm_compute; reflexivity|].
  split; [vm_compute; reflexivity|]. split; [left; reflexivity|]. split; vm_compute; reflexivity.
Qed.
