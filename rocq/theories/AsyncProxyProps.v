(** Theorems about async lazy fields (C12 - C14): FXProxyAsync of
    /repo/fieldx/src/async/fxproxy.rs, for every schedule of any number of
    activities, with calls abandoned at any [.await], every builder outcome, every
    value and error type. *)
From Coq Require Import List Bool Arith.
From Verif Require Import ProxyTypes AtomicCell TraceSpec AtomicCellFacts
  AsyncProxyModel AsyncProxyInv AsyncProxySim AsyncProxyProofs.
Import ListNotations.

Definition events {V E} (x : option (st V E * list (event V E))) : option (list (event V E)) :=
  option_map snd x.

(** Activity 1 starts a build and is abandoned while it runs; activity 2, waiting to
    clear, is abandoned too; activity 3 then builds, and reads its value. *)
Definition demo : list (action nat nat) :=
  [ACall 1 ORead; AStep 1; AStep 1; AStep 1; ACall 2 OClear; ACall 3 OTryRead;
   ACancel 1; ACancel 2; AStep 1; AStep 3; AStep 3; AStep 3; AStep 1; AStep 2;
   ABuilt 3 (BOk 7); AStep 3; AStep 3; AStep 3; AStep 3; AStep 3; ACall 3 GGet; AStep 3; AStep 3].
Definition demo_events : list (event nat nat) :=
  [EvCall 1 ORead; EvBuildStart 1; EvCall 2 OClear; EvCall 3 OTryRead; EvBuildStart 3;
   EvRet 1 RCancelled; EvRet 2 RCancelled; EvBuildEnd 3 (BOk 7); EvRet 3 (RGuard 7);
   EvCall 3 GGet; EvRet 3 (RVal (Some 7))].
Example demo_runs : events (run (init None) demo) = Some demo_events.
Proof. vm_compute. reflexivity. Qed.

(** ** C14: the async container behaves like the same atomic cell as the sync one
    (C05), with abandoned calls *)
Theorem C14_async_linearizable : forall V E (ov : option V) (l : list (action V E)) s t,
  run (init ov) l = Some (s, t) -> cell_history true ov t.
Proof.
  intros V E ov l s t H.
  destruct (sim_run true l _ _ _ _ (fun _ => eq_refl) (inv_init ov) (sim_init ov) H) as (c & R & _).
  exists c. exact R.
Qed.

(** Executions without abandoned calls have histories of the very cell that the sync
    container implements. *)
Theorem C14_async_same_cell_as_sync : forall V E (ov : option V) (l : list (action V E)) s t,
  existsb abandons l = false ->
  run (init ov) l = Some (s, t) -> cell_history false ov t.
Proof.
  intros V E ov l s t Hl H.
  destruct (sim_run false l _ _ _ _ ltac:(congruence) (inv_init ov) (sim_init ov) H) as (c & R & _).
  exists c. exact R.
Qed.

(** ** C12: at most one successful build per emptying *)
Theorem C12_async_no_duplicate_success :
  forall V E (ov : option V) (l : list (action V E)) s t1 a v t2 b w t3,
  run (init ov) l = Some (s, t1 ++ EvBuildEnd a (BOk v) :: t2 ++ EvBuildEnd b (BOk w) :: t3) ->
  overlapping clearing t1 t2.
Proof.
  intros V E ov l s t1 a v t2 b w t3 H. apply C14_async_linearizable in H as [c H].
  eapply successes_separated; eauto.
Qed.

Theorem C12_async_initial_value_not_rebuilt :
  forall V E (v0 : V) (l : list (action V E)) s t1 b w t2,
  run (init (Some v0)) l = Some (s, t1 ++ EvBuildEnd b (BOk w) :: t2) ->
  overlapping clearing [] t1.
Proof.
  intros V E v0 l s t1 b w t2 H. apply C14_async_linearizable in H as [c H].
  eapply first_success_separated; eauto.
Qed.

(** Builder futures of one field do not run at the same time: when the second starts
    the first has ended or its call was abandoned. *)
Theorem C12_async_builders_do_not_overlap :
  forall V E (ov : option V) (l : list (action V E)) s t1 a t2 b t3,
  run (init ov) l = Some (s, t1 ++ EvBuildStart a :: t2 ++ EvBuildStart b :: t3) ->
  (exists out, In (EvBuildEnd a out) t2) \/ In (EvRet a RCancelled) t2 \/
  (a <> b /\ forall u x u', t3 = u ++ x :: u' -> silent a u -> who x = a -> x = EvRet a RCancelled).
Proof.
  intros V E ov l s t1 a t2 b t3 H. apply C14_async_linearizable in H as [c H].
  eapply builders_exclusive_abandon; eauto.
Qed.

Theorem C12_async_one_builder_at_a_time :
  forall V E (ov : option V) (l : list (action V E)) s t a b m m',
  run (init ov) l = Some (s, t) -> pcs s a = RI_Build m -> pcs s b = RI_Build m' -> a = b.
Proof. intros V E ov l s t a b m m'. apply one_builder_at_a_time. Qed.

(** In [demo] builder 3 starts after builder 1 was abandoned; it is the only success. *)
Example C12_case :
  exists t1 t2 t3, demo_events = t1 ++ EvBuildStart 1 :: t2 ++ EvBuildStart 3 :: t3 /\
    forallb (fun e => negb (Nat.eqb (who e) 1)) t2 = true.
Proof.
  exists (firstn 1 demo_events), (firstn 2 (skipn 2 demo_events)), (skipn 5 demo_events).
  vm_compute. auto.
Qed.
(** Two successes around a clear. *)
Example C12_case_clear :
  events (run (init None)
    ([ACall 0 OLazyInit; AStep 0; AStep 0; AStep 0; ABuilt 0 (BOk 1); AStep 0; AStep 0; AStep 0; AStep 0] ++
     [ACall 0 OClear; AStep 0; AStep 0; AStep 0; AStep 0; AStep 0] ++
     [ACall 0 OReadMut; AStep 0; AStep 0; AStep 0; ABuilt 0 (BOk 2); AStep 0; AStep 0; AStep 0; AStep 0; AStep 0]
     : list (action nat nat)))
  = Some [EvCall 0 OLazyInit; EvBuildStart 0; EvBuildEnd 0 (BOk 1); EvRet 0 RUnit;
          EvCall 0 OClear; EvRet 0 (RVal (Some 1));
          EvCall 0 OReadMut; EvBuildStart 0; EvBuildEnd 0 (BOk 2); EvRet 0 (RGuard 2)].
Proof. vm_compute. reflexivity. Qed.

(** ** C13: failing, panicking or abandoned builders leave nothing behind *)
Theorem C13_async_bad_builder :
  forall V E (ov : option V) (l : list (action V E)) s t a out s' t',
  run (init ov) l = Some (s, t) -> bad out -> step s (ABuilt a out) = Some (s', t') ->
  exists o s'',
    pending t a = Some o /\
    run s' [AStep a; AStep a] = Some (s'', [EvRet a (bad_answer o out)]) /\
    value s'' = None /\ flag s'' = false /\ lw s'' = None /\ lr s'' = [] /\
    pcs s'' a = Hold HNone /\ (forall b, b <> a -> pcs s'' b = pcs s b).
Proof. intros V E ov l s t a out s' t'. apply bad_builder_leaves_nothing. Qed.

Theorem C13_async_abandoned_call :
  forall V E (ov : option V) (l : list (action V E)) s t a s' t',
  run (init ov) l = Some (s, t) -> step s (ACancel a) = Some (s', t') ->
  t' = [] /\
  exists n s'', n <= 2 /\
    run s' (repeat (AStep a) n) = Some (s'', [EvRet a RCancelled]) /\
    value s'' = value s /\ flag s'' = flag s /\ lr s'' = lr s /\
    pcs s'' a = Hold HNone /\ (forall b, b <> a -> pcs s'' b = pcs s b) /\
    (lw s <> Some a -> lw s'' = lw s) /\
    (lw s = Some a -> lw s'' = None /\ lr s'' = [] /\ value s'' = None /\ flag s'' = false).
Proof. intros V E ov l s t a s' t'. apply abandoned_call_leaves_nothing. Qed.

Theorem C13_async_later_read_builds_again :
  forall V E (ov : option V) (l : list (action V E)) s t a,
  run (init ov) l = Some (s, t) ->
  kept t a = (None, HNone) -> value s = None -> lw s = None -> lr s = [] ->
  forall v, exists s' s'',
    run s [ACall a ORead; AStep a; AStep a; AStep a] =
      Some (s', [EvCall a ORead; EvBuildStart a]) /\
    run s' (ABuilt a (BOk v) :: repeat (AStep a) 5) =
      Some (s'', [EvBuildEnd a (BOk v); EvRet a (RGuard v)]) /\ value s'' = Some v.
Proof. intros V E ov l s t a. apply empty_field_builds_again. Qed.

(** Errors and panics only come from the caller's own builder. *)
Theorem C13_async_panic_only_from_builder :
  forall V E (ov : option V) (l : list (action V E)) s t1 a t2,
  run (init ov) l = Some (s, t1 ++ EvRet a RPanic :: t2) ->
  last_of t1 a = Some (EvBuildEnd a BPanic) \/
  exists e, last_of t1 a = Some (EvBuildEnd a (BErr e)).
Proof.
  intros V E ov l s t1 a t2 H. apply C14_async_linearizable in H as [c H].
  eapply panic_from_builder; eauto.
Qed.

Theorem C13_async_failure_is_reported :
  forall V E (ov : option V) (l : list (action V E)) s t1 a e t2 x t3,
  run (init ov) l = Some (s, t1 ++ EvBuildEnd a (BErr e) :: t2 ++ x :: t3) ->
  silent a t2 -> who x = a ->
  exists o, pending t1 a = Some o /\ lazy_call o = true /\ x = EvRet a (reading_err o e).
Proof.
  intros V E ov l s t1 a e t2 x t3 H. apply C14_async_linearizable in H as [c H].
  eapply failure_answer; eauto.
Qed.

(** The states of [demo] where the two calls are abandoned. *)
Example C13_case :
  exists s t s1 s2,
    run (init None) (firstn 6 demo) = Some (s, t) /\
    step s (ACancel 1) = Some (s1, []) /\ lw s = Some 1 /\
    step s1 (ACancel 2) = Some (s2, []) /\ lw s1 <> Some 2.
Proof.
  eexists _, _, _, _. split; [vm_compute; reflexivity|]. split; [vm_compute; reflexivity|].
  split; [reflexivity|]. split; [vm_compute; reflexivity|]. vm_compute. discriminate.
Qed.

(** ** C14, continued: what linearizability gives for guards, values and clones *)
Theorem C14_async_guards_exclude :
  forall V E (ov : option V) (l : list (action V E)) s t a b,
  run (init ov) l = Some (s, t) -> a <> b ->
  keeps t a = HM \/ keeps t a = HW -> keeps t b = HNone.
Proof. intros V E ov l s t a b. apply guards_exclude. Qed.

Theorem C14_async_guard_reads_what_holder_expects :
  forall V E (ov : option V) (l : list (action V E)) s t1 a r t2,
  run (init ov) l = Some (s, t1 ++ EvRet a r :: t2) ->
  fst (kept t1 a) = Some GGet ->
  exists v, view t1 a = Some v /\ r = RVal (Some v).
Proof. intros V E ov l s t1 a r t2. apply guard_reads_view. Qed.

Theorem C14_async_guard_pins_value :
  forall V E (l2 : list (action V E)) ov l1 s1 t1 s2 t2 a,
  run (init ov) l1 = Some (s1, t1) -> run s1 l2 = Some (s2, t2) ->
  keeps t1 a <> HNone -> fst (kept t1 a) = None -> silent a t2 ->
  value s2 = value s1 /\ flag s2 = flag s1 /\ forall b, ~ In (EvBuildStart b) t2.
Proof. intros V E l2. apply guard_pins. Qed.

Theorem C14_async_predicate_at_rest :
  forall V E (ov : option V) (l : list (action V E)) s t a,
  run (init ov) l = Some (s, t) -> (forall b, fst (kept t b) = None) -> keeps t a = HNone ->
  exists s', run s [ACall a OIsSet; AStep a; AStep a] =
             Some (s', [EvCall a OIsSet; EvRet a (RBool (is_some (value s)))]).
Proof. intros V E ov l s t a. apply predicate_at_rest. Qed.

Theorem C14_async_after_clear_fresh :
  forall V E (ov : option V) (l : list (action V E)) s t1 a o t2 r t3 b r' t4 v,
  run (init ov) l = Some (s, t1 ++ EvCall a o :: t2 ++ EvRet a r :: t3 ++ EvRet b r' :: t4) ->
  clearing o = true -> silent a t2 -> r <> RCancelled ->
  pending (t1 ++ EvCall a o :: t2 ++ [EvRet a r]) b = None -> shows r' v ->
  exists e, source v e /\ (In e (t2 ++ t3) \/ last_of t1 (who e) = Some e).
Proof.
  intros V E ov l s t1 a o t2 r t3 b r' t4 v H. apply C14_async_linearizable in H as [c H].
  eapply after_clear_fresh; eauto.
Qed.

Theorem C14_async_clone_is_a_fresh_container :
  forall V E (ov : option V) (l : list (action V E)) s t1 a ov' b bs t2,
  run (init ov) l = Some (s, t1 ++ EvRet a (RClone ov' b bs) :: t2) ->
  mkst ov' b bs None [] (fun _ => Hold HNone) = (init ov' : st V E).
Proof.
  intros V E ov l s t1 a ov' b bs t2 H. apply C14_async_linearizable in H as [c H].
  destruct (clone_consistent _ _ _ _ _ _ _ _ _ H) as [-> ->]. reflexivity.
Qed.

Example C14_case :
  keeps demo_events 3 = HR /\ view (firstn 10 demo_events) 3 = Some 7 /\
  fst (kept (firstn 10 demo_events) 3) = Some GGet /\
  events (run (init (Some 4)) [ACall 0 OClone; ACall 1 OClear; AStep 0; AStep 0; AStep 0; AStep 0;
    AStep 1; AStep 1; AStep 1; AStep 0; AStep 1; AStep 1; ACall 0 OIsSet; AStep 0; AStep 0
    : action nat nat])
  = Some [EvCall 0 OClone; EvCall 1 OClear; EvRet 0 (RClone (Some 4) true true);
          EvRet 1 (RVal (Some 4)); EvCall 0 OIsSet; EvRet 0 (RBool false)].
Proof. vm_compute. auto. Qed.

(** ** Locks are not leaked and calls come to an end *)
(** When no call is in progress the lock is owned exactly by the guards user code
    keeps. *)
Theorem C13_async_no_lock_left_behind :
  forall V E (ov : option V) (l : list (action V E)) s t,
  run (init ov) l = Some (s, t) -> (forall a, fst (kept t a) = None) ->
  (forall a, lw s = Some a <-> keeps t a = HM \/ keeps t a = HW) /\
  (forall a, In a (lr s) <-> keeps t a = HR).
Proof. intros V E ov l s t. apply locks_at_rest. Qed.

(** If user code keeps no guard and a call is in progress, something can move. *)
Theorem C13_async_no_stuck_calls :
  forall V E (ov : option V) (l : list (action V E)) s t a,
  run (init ov) l = Some (s, t) ->
  (forall b, fst (kept t b) = None -> keeps t b = HNone) -> fst (kept t a) <> None ->
  (exists b s' t', step s (AStep b) = Some (s', t')) \/
  (exists b, forall out, exists s' t', step s (ABuilt b out) = Some (s', t')).
Proof. intros V E ov l s t a. apply no_stuck. Qed.

(** No call goes round in circles: 13 steps of code per call at most. *)
Theorem C13_async_calls_are_short :
  forall V E (ov : option V) (l : list (action V E)) s t a,
  run (init ov) l = Some (s, t) -> count (code_of a) l <= 13 * count (call_of a) l.
Proof. intros V E ov l s t a. apply no_spinning. Qed.

(** A lazy_init, a read and a clear, one after the other: nothing is left locked. *)
Definition c13_async_quiet : list (action nat nat) :=
  [ACall 0 OLazyInit] ++ repeat (AStep 0) 3 ++ [ABuilt 0 (BOk 4)] ++ repeat (AStep 0) 4 ++
  [ACall 1 ORead] ++ repeat (AStep 1) 5 ++ [ACall 2 OClear].
Example C13_async_case_locks : exists s t, run (init None) c13_async_quiet = Some (s, t) /\
  lw s = None /\ lr s = [1] /\ kept t 2 = (Some OClear, HNone) /\ kept t 1 = (None, HR) /\
  step s (AStep 2) = None.
Proof. eexists _, _. split; [vm_compute; reflexivity|]. vm_compute. auto. Qed.
Example C13_async_case_stuck : exists s t,
  run (init None) (firstn 3 c13_async_quiet ++ [ACall 2 OClear]) = Some (s, t) /\
  (forall b, fst (kept t b) = None -> keeps t b = HNone) /\ fst (kept t 2) <> None /\
  step s (AStep 2) = None.
Proof.
  eexists _, _. split; [vm_compute; reflexivity|]. split; [|vm_compute; split; [discriminate|auto]].
  intros b. destruct b as [|[|[|b]]]; cbn; auto.
Qed.

Print Assumptions C14_async_linearizable.
Print Assumptions C14_async_same_cell_as_sync.
Print Assumptions C12_async_no_duplicate_success.
Print Assumptions C12_async_initial_value_not_rebuilt.
Print Assumptions C12_async_builders_do_not_overlap.
Print Assumptions C12_async_one_builder_at_a_time.
Print Assumptions C13_async_bad_builder.
Print Assumptions C13_async_abandoned_call.
Print Assumptions C13_async_later_read_builds_again.
Print Assumptions C13_async_panic_only_from_builder.
Print Assumptions C13_async_failure_is_reported.
Print Assumptions C14_async_guards_exclude.
Print Assumptions C14_async_guard_reads_what_holder_expects.
Print Assumptions C14_async_guard_pins_value.
Print Assumptions C14_async_predicate_at_rest.
Print Assumptions C14_async_after_clear_fresh.
Print Assumptions C14_async_clone_is_a_fresh_container.
Print Assumptions C13_async_no_lock_left_behind.
Print Assumptions C13_async_no_stuck_calls.
Print Assumptions C13_async_calls_are_short.
