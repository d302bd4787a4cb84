(** Theorems about sync lazy fields (C01 - C08): FXProxySync of
    /repo/fieldx/src/sync/fxproxy.rs, for every schedule of any number of
    activities, every builder outcome, every value and error type. *)
From Coq Require Import List Bool Arith.
From Verif Require Import ProxyTypes AtomicCell TraceSpec AtomicCellFacts
  SyncProxyModel SyncProxyInv SyncProxySim SyncProxyProofs.
Import ListNotations.

(** ** C05: the container behaves like an atomic optional cell with a builder *)
Theorem C05_linearizable : forall V E (ov : option V) (l : list (action V E)) s t,
  run (init ov) l = Some (s, t) -> cell_history false ov t.
Proof.
  intros V E ov l s t H.
  destruct (sim_run l _ _ _ _ (inv_init ov) (sim_init ov) H) as (c & R & _).
  exists c. exact R.
Qed.

(** An execution used below: activity 1 reads an empty field; while its builder runs
    activity 2 asks to clear and activity 3 asks for the predicate; then activity 1
    drops its guard, the clear goes through, and activity 2 reads again, with another
    builder run. *)
Definition demo : list (action nat nat) :=
  [ACall 1 ORead; AStep 1; AStep 1; AStep 1; AStep 1; AStep 1;
   ACall 2 OClear; ACall 3 OIsSet; AStep 3; AStep 3;
   ABuilt 1 (BOk 7); AStep 1; AStep 1; AStep 1; AStep 1; AStep 1; AStep 1;
   ACall 1 GGet; AStep 1; AStep 1;
   ACall 1 GDrop; AStep 1; AStep 1;
   AStep 2; AStep 2; AStep 2; AStep 2; AStep 2;
   ACall 2 OTryReadMut; AStep 2; AStep 2; AStep 2; AStep 2; AStep 2;
   ABuilt 2 (BOk 8); AStep 2; AStep 2; AStep 2; AStep 2; AStep 2; AStep 2; AStep 2;
   ACall 2 (GSet 9); AStep 2; AStep 2; ACall 2 GGet; AStep 2; AStep 2].
Definition demo_events : list (event nat nat) :=
  [EvCall 1 ORead; EvBuildStart 1; EvCall 2 OClear; EvCall 3 OIsSet; EvRet 3 (RBool false);
   EvBuildEnd 1 (BOk 7); EvRet 1 (RGuard 7); EvCall 1 GGet; EvRet 1 (RVal (Some 7));
   EvCall 1 GDrop; EvRet 1 RUnit; EvRet 2 (RVal (Some 7));
   EvCall 2 OTryReadMut; EvBuildStart 2; EvBuildEnd 2 (BOk 8); EvRet 2 (RGuard 8);
   EvCall 2 (GSet 9); EvRet 2 RUnit; EvCall 2 GGet; EvRet 2 (RVal (Some 9))].

Definition events {V E} (x : option (st V E * list (event V E))) : option (list (event V E)) :=
  option_map snd x.

Example demo_runs : events (run (init None) demo) = Some demo_events.
Proof. vm_compute. reflexivity. Qed.

(** ** C01: a builder's success is followed by another one only if the field was
    emptied: some clear was called before the second success and had not returned
    before the first. *)
Theorem C01_no_duplicate_success :
  forall V E (ov : option V) (l : list (action V E)) s t1 a v t2 b w t3,
  run (init ov) l = Some (s, t1 ++ EvBuildEnd a (BOk v) :: t2 ++ EvBuildEnd b (BOk w) :: t3) ->
  overlapping clearing t1 t2.
Proof.
  intros V E ov l s t1 a v t2 b w t3 H. apply C05_linearizable in H as [c H].
  eapply successes_separated; eauto.
Qed.

Theorem C01_initial_value_not_rebuilt :
  forall V E (v0 : V) (l : list (action V E)) s t1 b w t2,
  run (init (Some v0)) l = Some (s, t1 ++ EvBuildEnd b (BOk w) :: t2) ->
  overlapping clearing [] t1.
Proof.
  intros V E v0 l s t1 b w t2 H. apply C05_linearizable in H as [c H].
  eapply first_success_separated; eauto.
Qed.

(** Builders of one field never run at the same time. *)
Theorem C01_builders_do_not_overlap :
  forall V E (ov : option V) (l : list (action V E)) s t1 a t2 b t3,
  run (init ov) l = Some (s, t1 ++ EvBuildStart a :: t2 ++ EvBuildStart b :: t3) ->
  exists out, In (EvBuildEnd a out) t2.
Proof.
  intros V E ov l s t1 a t2 b t3 H. apply C05_linearizable in H as [c H].
  destruct (builders_exclusive _ _ _ _ _ _ _ _ H); [discriminate|auto].
Qed.

(** [demo] has two successes; the clear of activity 2 was in progress at the first. *)
Example C01_case :
  exists t1 t2 t3,
    events (run (init None) demo) =
      Some (t1 ++ EvBuildEnd 1 (BOk 7) :: t2 ++ EvBuildEnd 2 (BOk 8) :: t3) /\
    pending t1 2 = Some OClear.
Proof.
  exists (firstn 5 demo_events), (firstn 8 (skipn 6 demo_events)), (skipn 15 demo_events).
  vm_compute. auto.
Qed.

(** With an initial value: clear, then read. *)
Example C01_case_initial :
  events (run (init (Some 3)) [ACall 0 OClear; AStep 0; AStep 0; AStep 0; AStep 0; AStep 0;
    ACall 0 ORead; AStep 0; AStep 0; AStep 0; AStep 0; AStep 0; ABuilt 0 (BOk 4 : outcome nat nat)])
  = Some [EvCall 0 OClear; EvRet 0 (RVal (Some 3)); EvCall 0 ORead; EvBuildStart 0;
          EvBuildEnd 0 (BOk 4)].
Proof. vm_compute. reflexivity. Qed.

(** ** C02: a call panics only because its own builder failed or panicked; so the
    unwraps inside the container never fail. *)
Theorem C02_panic_only_from_builder :
  forall V E (ov : option V) (l : list (action V E)) s t1 a t2,
  run (init ov) l = Some (s, t1 ++ EvRet a RPanic :: t2) ->
  last_of t1 a = Some (EvBuildEnd a BPanic) \/
  exists e, last_of t1 a = Some (EvBuildEnd a (BErr e)).
Proof.
  intros V E ov l s t1 a t2 H. apply C05_linearizable in H as [c H].
  eapply panic_from_builder; eauto.
Qed.

Example C02_case :
  events (run (init None) [ACall 0 ORead; AStep 0; AStep 0; AStep 0; AStep 0; AStep 0;
                           ABuilt 0 (BErr 5 : outcome nat nat); AStep 0; AStep 0])
  = Some ([EvCall 0 ORead; EvBuildStart 0; EvBuildEnd 0 (BErr 5)] ++ EvRet 0 RPanic :: []).
Proof. vm_compute. reflexivity. Qed.

(** ** C03: guards *)
(** A write guard excludes every other guard. *)
Theorem C03_guards_exclude :
  forall V E (ov : option V) (l : list (action V E)) s t a b,
  run (init ov) l = Some (s, t) -> a <> b ->
  keeps t a = HM \/ keeps t a = HW -> keeps t b = HNone.
Proof. intros V E ov l s t a b. apply guards_exclude. Qed.

(** What is read through a guard is what was behind it when it was made, or what its
    holder assigned through it since. *)
Theorem C03_guard_reads_what_holder_expects :
  forall V E (ov : option V) (l : list (action V E)) s t1 a r t2,
  run (init ov) l = Some (s, t1 ++ EvRet a r :: t2) ->
  fst (kept t1 a) = Some GGet ->
  exists v, view t1 a = Some v /\ r = RVal (Some v).
Proof. intros V E ov l s t1 a r t2. apply guard_reads_view. Qed.

(** While a guard is kept (and not used by its holder) the value and the flag stay
    and no builder starts, whatever the others do. *)
Theorem C03_guard_pins_value :
  forall V E (l2 : list (action V E)) ov l1 s1 t1 s2 t2 a,
  run (init ov) l1 = Some (s1, t1) -> run s1 l2 = Some (s2, t2) ->
  keeps t1 a <> HNone -> fst (kept t1 a) = None -> silent a t2 ->
  value s2 = value s1 /\ flag s2 = flag s1 /\ forall b, ~ In (EvBuildStart b) t2.
Proof. intros V E l2. apply guard_pins. Qed.

Example C03_case :
  keeps (firstn 9 demo_events) 1 = HR /\ keeps demo_events 2 = HM /\
  view (firstn 19 demo_events) 2 = Some 9 /\
  fst (kept (firstn 19 demo_events) 2) = Some GGet.
Proof. vm_compute. auto. Qed.

(** A reader is kept while another activity queues a clear and a third one reads. *)
Example C03_case_pins :
  exists s1 t1 s2 t2,
    run (init (Some 3)) [ACall 1 ORead; AStep 1; AStep 1; AStep 1; AStep 1; AStep 1] = Some (s1, t1) /\
    run s1 [ACall 2 OClear; ACall 3 OTryRead; AStep 3; AStep 3; AStep 3; AStep 3; AStep 3;
            ACall 3 GDrop; AStep 3; AStep 3] = Some (s2, t2) /\
    keeps t1 1 = HR /\ fst (@kept nat nat t1 1) = None /\ length t2 = 5 /\
    forallb (fun e => negb (Nat.eqb (who e) 1)) t2 = true.
Proof.
  eexists _, _, _, _. split; [vm_compute; reflexivity|]. split; [vm_compute; reflexivity|].
  vm_compute. auto.
Qed.

(** ** C04: the predicate *)
Theorem C04_flag_at_rest :
  forall V E (ov : option V) (l : list (action V E)) s t,
  run (init ov) l = Some (s, t) -> (forall a, fst (kept t a) = None) ->
  flag s = is_some (value s).
Proof. intros V E ov l s t. apply flag_at_rest. Qed.

Theorem C04_predicate_at_rest :
  forall V E (ov : option V) (l : list (action V E)) s t a,
  run (init ov) l = Some (s, t) -> (forall b, fst (kept t b) = None) -> keeps t a = HNone ->
  exists s', run s [ACall a OIsSet; AStep a; AStep a] =
             Some (s', [EvCall a OIsSet; EvRet a (RBool (is_some (value s)))]).
Proof. intros V E ov l s t a. apply predicate_at_rest. Qed.

(** After [demo] nobody is in the middle of a call; activity 2 keeps a guard. *)
Example C04_case : exists s t, run (init None) demo = Some (s, t) /\
  (forall a, fst (kept t a) = None) /\ keeps t 1 = HNone /\ value s = Some 9.
Proof.
  eexists _, _. split; [vm_compute; reflexivity|]. split; [|vm_compute; auto].
  intros a. destruct a as [|[|[|[|a]]]]; reflexivity.
Qed.

(** ** C06: a builder that fails or panics *)
(** The next thing seen of the call is its answer, which carries the failure. *)
Theorem C06_failure_is_reported :
  forall V E (ov : option V) (l : list (action V E)) s t1 a e t2 x t3,
  run (init ov) l = Some (s, t1 ++ EvBuildEnd a (BErr e) :: t2 ++ x :: t3) ->
  silent a t2 -> who x = a ->
  exists o, pending t1 a = Some o /\ lazy_call o = true /\ x = EvRet a (reading_err o e).
Proof.
  intros V E ov l s t1 a e t2 x t3 H. apply C05_linearizable in H as [c H].
  eapply failure_answer; eauto.
Qed.

(** An error is only reported by the call whose builder failed, just after. *)
Theorem C06_error_only_from_own_builder :
  forall V E (ov : option V) (l : list (action V E)) s t1 a e t2,
  run (init ov) l = Some (s, t1 ++ EvRet a (RErr e) :: t2) ->
  last_of t1 a = Some (EvBuildEnd a (BErr e)).
Proof.
  intros V E ov l s t1 a e t2 H. apply C05_linearizable in H as [c H].
  eapply error_from_builder; eauto.
Qed.

(** The field is empty and unlocked afterwards and the predicate says so. *)
Theorem C06_nothing_left_behind :
  forall V E (ov : option V) (l : list (action V E)) s t a out s' t',
  run (init ov) l = Some (s, t) -> bad out -> step s (ABuilt a out) = Some (s', t') ->
  exists o s'',
    pending t a = Some o /\
    run s' [AStep a; AStep a] = Some (s'', [EvRet a (bad_answer o out)]) /\
    value s'' = None /\ flag s'' = false /\ lw s'' = None /\ lu s'' = None /\ lr s'' = [] /\
    pcs s'' a = Hold HNone /\ (forall b, b <> a -> pcs s'' b = pcs s b).
Proof. intros V E ov l s t a out s' t'. apply bad_builder_leaves_nothing. Qed.

(** A later read builds again and can succeed. *)
Theorem C06_later_read_builds_again :
  forall V E (ov : option V) (l : list (action V E)) s t a,
  run (init ov) l = Some (s, t) ->
  kept t a = (None, HNone) -> value s = None -> lw s = None -> lu s = None -> lr s = [] ->
  forall v, exists s' s'',
    run s [ACall a ORead; AStep a; AStep a; AStep a; AStep a; AStep a] =
      Some (s', [EvCall a ORead; EvBuildStart a]) /\
    run s' (ABuilt a (BOk v) :: repeat (AStep a) 6) =
      Some (s'', [EvBuildEnd a (BOk v); EvRet a (RGuard v)]) /\ value s'' = Some v.
Proof. intros V E ov l s t a. apply empty_field_builds_again. Qed.

(** try_read fails with 5, then another activity (waiting meanwhile) builds 6. *)
Example C06_case :
  events (run (init None)
    ([ACall 0 OTryRead; AStep 0; AStep 0; AStep 0; AStep 0; AStep 0; ACall 1 ORead;
      ABuilt 0 (BErr 5); AStep 0; AStep 0] ++ repeat (AStep 1) 5 ++
      ABuilt 1 (BOk 6) :: repeat (AStep 1) 6))
  = Some [EvCall 0 OTryRead; EvBuildStart 0; EvCall 1 ORead; EvBuildEnd 0 (BErr 5);
          EvRet 0 (RErr 5); EvBuildStart 1; EvBuildEnd 1 (BOk 6); EvRet 1 (RGuard 6)].
Proof. vm_compute. reflexivity. Qed.

(** ** C07: clear *)
(** Values from before a clear are not seen by calls made after it: what they see was
    stored, assigned or built by something that was in progress when the clear was
    called, or later. *)
Theorem C07_after_clear_fresh :
  forall V E (ov : option V) (l : list (action V E)) s t1 a o t2 r t3 b r' t4 v,
  run (init ov) l = Some (s, t1 ++ EvCall a o :: t2 ++ EvRet a r :: t3 ++ EvRet b r' :: t4) ->
  clearing o = true -> silent a t2 -> r <> RCancelled ->
  pending (t1 ++ EvCall a o :: t2 ++ [EvRet a r]) b = None -> shows r' v ->
  exists e, source v e /\ (In e (t2 ++ t3) \/ last_of t1 (who e) = Some e).
Proof.
  intros V E ov l s t1 a o t2 r t3 b r' t4 v H. apply C05_linearizable in H as [c H].
  eapply after_clear_fresh; eauto.
Qed.

(** Every value any call shows is the initial one or was stored, assigned or built. *)
Theorem C07_values_have_sources :
  forall V E (ov : option V) (l : list (action V E)) s t1 a r t2 v,
  run (init ov) l = Some (s, t1 ++ EvRet a r :: t2) -> shows r v ->
  ov = Some v \/ exists e, source v e /\ In e t1.
Proof.
  intros V E ov l s t1 a r t2 v H. apply C05_linearizable in H as [c H].
  eapply shown_values_have_source; eauto.
Qed.

(** Builders run only for calls that need a value, once per call at most. *)
Theorem C07_builder_only_for_reads :
  forall V E (ov : option V) (l : list (action V E)) s t1 a t2,
  run (init ov) l = Some (s, t1 ++ EvBuildStart a :: t2) ->
  exists o, pending t1 a = Some o /\ lazy_call o = true /\ last_of t1 a = Some (EvCall a o).
Proof.
  intros V E ov l s t1 a t2 H. apply C05_linearizable in H as [c H].
  eapply builder_only_for_reads; eauto.
Qed.

(** In [demo] the clear returns 7 and the later read shows 8, built after it. *)
Example C07_case :
  exists t1 t2 t3 t4,
    demo_events = t1 ++ EvCall 2 OClear :: t2 ++ EvRet 2 (RVal (Some 7)) :: t3 ++
                  EvRet 2 (RGuard 8) :: t4 /\
    forallb (fun e => negb (Nat.eqb (who e) 2)) t2 = true /\
    pending (t1 ++ EvCall 2 OClear :: t2 ++ [EvRet 2 (RVal (Some 7))]) 2 = None /\
    In (EvBuildEnd 2 (BOk 8)) t3.
Proof.
  exists (firstn 2 demo_events), (firstn 8 (skipn 3 demo_events)),
         (firstn 3 (skipn 12 demo_events)), (skipn 16 demo_events).
  vm_compute. intuition.
Qed.

(** ** C08: a clone is a consistent snapshot *)
(** What a clone is made of is exactly a new container initialised with the value. *)
Theorem C08_clone_is_a_fresh_container :
  forall V E (ov : option V) (l : list (action V E)) s t1 a ov' b bs t2,
  run (init ov) l = Some (s, t1 ++ EvRet a (RClone ov' b bs) :: t2) ->
  mkst ov' b bs None None [] (fun _ => Hold HNone) = (init ov' : st V E).
Proof.
  intros V E ov l s t1 a ov' b bs t2 H. apply C05_linearizable in H as [c H].
  destruct (clone_consistent _ _ _ _ _ _ _ _ _ H) as [-> ->]. reflexivity.
Qed.

Example C08_case :
  events (run (init (Some 4)) [ACall 0 OClone; ACall 1 OClear; AStep 0; AStep 0; AStep 0; AStep 0;
    AStep 1; AStep 1; AStep 1; AStep 0; AStep 1; AStep 1; ACall 0 OClone; AStep 0; AStep 0; AStep 0;
    AStep 0; AStep 0 : action nat nat])
  = Some [EvCall 0 OClone; EvCall 1 OClear; EvRet 0 (RClone (Some 4) true true);
          EvRet 1 (RVal (Some 4)); EvCall 0 OClone; EvRet 0 (RClone None false true)].
Proof. vm_compute. reflexivity. Qed.

(** ** Locks are not leaked and calls come to an end *)
(** When no call is in progress the lock is owned exactly by the guards user code
    keeps. *)
Theorem C02_no_lock_left_behind :
  forall V E (ov : option V) (l : list (action V E)) s t,
  run (init ov) l = Some (s, t) -> (forall a, fst (kept t a) = None) ->
  lu s = None /\
  (forall a, lw s = Some a <-> keeps t a = HM \/ keeps t a = HW) /\
  (forall a, In a (lr s) <-> keeps t a = HR).
Proof. intros V E ov l s t. apply locks_at_rest. Qed.

(** If user code keeps no guard and a call is in progress, something can move. *)
Theorem C02_no_stuck_calls :
  forall V E (ov : option V) (l : list (action V E)) s t a,
  run (init ov) l = Some (s, t) ->
  (forall b, fst (kept t b) = None -> keeps t b = HNone) -> fst (kept t a) <> None ->
  (exists b s' t', step s (AStep b) = Some (s', t')) \/
  (exists b, forall out, exists s' t', step s (ABuilt b out) = Some (s', t')).
Proof. intros V E ov l s t a. apply no_stuck. Qed.

(** No call goes round in circles: 13 steps of code per call at most. *)
Theorem C02_calls_are_short :
  forall V E (ov : option V) (l : list (action V E)) s t a,
  run (init ov) l = Some (s, t) -> count (code_of a) l <= 13 * count (call_of a) l.
Proof. intros V E ov l s t a. apply no_spinning. Qed.

(** A lazy_init, a read and a clear, one after the other: nothing is left locked. *)
Definition c02_quiet : list (action nat nat) :=
  [ACall 0 OLazyInit] ++ repeat (AStep 0) 5 ++ [ABuilt 0 (BOk 4)] ++ repeat (AStep 0) 5 ++
  [ACall 1 ORead] ++ repeat (AStep 1) 5 ++ [ACall 2 OClear].
Example C02_case_locks : exists s t, run (init None) c02_quiet = Some (s, t) /\
  lw s = None /\ lr s = [1] /\ kept t 2 = (Some OClear, HNone) /\ kept t 1 = (None, HR) /\
  step s (AStep 2) = None.
Proof. eexists _, _. split; [vm_compute; reflexivity|]. vm_compute. auto. Qed.
Example C02_case_stuck : exists s t,
  run (init None) (firstn 4 c02_quiet ++ [ACall 2 OClear]) = Some (s, t) /\
  (forall b, fst (kept t b) = None -> keeps t b = HNone) /\ fst (kept t 2) <> None /\
  step s (AStep 2) = None.
Proof.
  eexists _, _. split; [vm_compute; reflexivity|]. split; [|vm_compute; split; [discriminate|auto]].
  intros b. destruct b as [|[|[|b]]]; cbn; auto.
Qed.

Print Assumptions C05_linearizable.
Print Assumptions C01_no_duplicate_success.
Print Assumptions C01_initial_value_not_rebuilt.
Print Assumptions C01_builders_do_not_overlap.
Print Assumptions C02_panic_only_from_builder.
Print Assumptions C03_guards_exclude.
Print Assumptions C03_guard_reads_what_holder_expects.
Print Assumptions C03_guard_pins_value.
Print Assumptions C04_flag_at_rest.
Print Assumptions C04_predicate_at_rest.
Print Assumptions C06_failure_is_reported.
Print Assumptions C06_error_only_from_own_builder.
Print Assumptions C06_nothing_left_behind.
Print Assumptions C06_later_read_builds_again.
Print Assumptions C07_after_clear_fresh.
Print Assumptions C07_values_have_sources.
Print Assumptions C07_builder_only_for_reads.
Print Assumptions C08_clone_is_a_fresh_container.
Print Assumptions C02_no_lock_left_behind.
Print Assumptions C02_no_stuck_calls.
Print Assumptions C02_calls_are_short.
