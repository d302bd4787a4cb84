(** Property C67: one sync locked field among others.  Any number of fields, threads and
    builders. *)
From Coq Require Import List Bool Arith.
From Verif Require Import ProxyTypes MultiSpec RegisterSpec MultiModel MultiStory.
From Verif Require Import MultiOwn MultiRegister MultiCompare.
Import ListNotations.

(** C67.  Whatever a call on the field answers is the value last set through a write
    guard by anybody, or the first one; clones show it as it was at a moment during
    the call. *)
Theorem C67_shows_last_set : forall builder f vs v0 ps l s ev before t c r after,
  (forall g n, lockily f (builder g n)) -> Forall (lockily f) ps -> vs f = Some v0 ->
  run builder (start vs ps) l = Some (s, ev) ->
  lock_story builder f nobody_calls (start vs ps) l = before ++ LRet t c r :: after ->
  truthful v0 before t c r.
Proof.
  intros builder f vs v0 ps l s ev before t c r after B P V R E.
  destruct (story_good builder f v0 B l _ _ [] _ _ (start_good f v0 vs ps V P) R) as [_ T].
  exact (T _ _ _ _ _ E).
Qed.
Print Assumptions C67_shows_last_set.

(** The field itself holds that value whenever nobody has the writer bit. *)
Theorem C67_holds_last_set : forall builder f vs v0 ps l s ev,
  (forall g n, lockily f (builder g n)) -> Forall (lockily f) ps -> vs f = Some v0 ->
  run builder (start vs ps) l = Some (s, ev) ->
  lw (fields s f) = None ->
  value (fields s f) = Some (last_set v0 (lock_story builder f nobody_calls (start vs ps) l)).
Proof.
  intros builder f vs v0 ps l s ev B P V R W.
  destruct (story_good builder f v0 B l _ _ [] _ _ (start_good f v0 vs ps V P) R) as [[cs G] _].
  apply (at_rest f v0 cs s _ G W).
Qed.
Print Assumptions C67_holds_last_set.

(** A guard for writing is the only guard of its field, whoever keeps it and whatever
    kind of field it is. *)
Theorem C67_guards_exclude : forall builder f v0 ps l s ev h,
  run builder (start v0 ps) l = Some (s, ev) ->
  In (f, h) (guards_on f s) -> h = HM \/ h = HW ->
  guards_on f s = [(f, h)].
Proof. intros builder f v0 ps l s ev h R. exact (exclusive _ _ _ _ _ _ _ _ R). Qed.
Print Assumptions C67_guards_exclude.

(** Comparing two fields, locked or lazy, looks at both of them at one moment during the
    call. *)
Theorem C67_comparison : forall builder f v0 ps l s ev before t g r after,
  run builder (start v0 ps) l = Some (s, ev) ->
  lock_story builder f nobody_calls (start v0 ps) l = before ++ LRet t (EqWith g) r :: after ->
  exists b l1 l2 s1 ev1, r = RBool b /\ l = l1 ++ l2 /\
    run builder (start v0 ps) l1 = Some (s1, ev1) /\
    busy_with t (EqWith g) (lock_story builder f nobody_calls (start v0 ps) l1) /\
    calls_by t (lock_story builder f nobody_calls (start v0 ps) l1) = calls_by t before /\
    (b = true <-> value (fields s1 f) = value (fields s1 g)).
Proof.
  intros builder f v0 ps l s ev before t g r after R E. eapply compared; eauto.
  intros u th N. cbn in N. rewrite nth_error_map in N.
  destruct (nth_error ps u) as [p|]; [|discriminate]. injection N as <-. eauto.
Qed.
Print Assumptions C67_comparison.

(** Field 1 is lazy and built from field 0, which is locked; one thread writes to field
    0, one reads field 1, one compares field 0 with field 2 and clones it. *)
Definition from_lock (f : fid) (_ : nat) : prog :=
  match f with
  | 0 => PEnd BPanic
  | S _ => PCall 0 LockRead (fun r => match r with RGuard v => PEnd (BOk (10 + v)) | _ => PEnd BPanic end)
  end.
Definition write_five : prog :=
  PCall 0 LockWrite (fun _ => PCall 0 (Proxy (GSet 5)) (fun _ =>
  PCall 0 (Proxy GDrop) (fun _ => PEnd (BOk 0)))).
Definition ask_lazy : prog := PCall 1 (Proxy ORead) (fun _ => PEnd (BOk 0)).
Definition compare_clone : prog :=
  PCall 0 (EqWith 2) (fun _ => PCall 0 (Proxy OClone) (fun _ => PEnd (BOk 0))).
Definition three : list prog := [write_five; ask_lazy; compare_clone].
Definition from7 (f : fid) : option nat :=
  match f with 0 => Some 7 | 1 => None | _ => Some 5 end.
(** The writer has the writer bit and waits while the third thread compares. *)
Definition mixed : list (tid * nat) :=
  repeat (2, 0) 2 ++ repeat (0, 0) 2 ++ repeat (2, 0) 5 ++ repeat (0, 0) 9 ++ repeat (1, 0) 15 ++
  repeat (2, 0) 6.

Lemma from_lock_lockily g n : lockily 0 (from_lock g n).
Proof.
  destruct g; cbn; auto. split; auto. intros [v| | | | | | |]; cbn; auto.
Qed.

Example C67_case :
  (forall g n, lockily 0 (from_lock g n)) /\ Forall (lockily 0) three /\
  match run from_lock (start from7 three) mixed with
  | Some (s, ev) => value (fields s 1) = Some 15
  | None => False
  end /\
  lock_story from_lock 0 nobody_calls (start from7 three) mixed =
    [LCall 2 (EqWith 2); LCall 0 LockWrite; LRet 2 (EqWith 2) (RBool false); LRet 0 LockWrite (RGuard 7);
     LCall 0 (Proxy (GSet 5)); LRet 0 (Proxy (GSet 5)) RUnit; LCall 0 (Proxy GDrop); LRet 0 (Proxy GDrop) RUnit;
     LCall 1 LockRead; LRet 1 LockRead (RGuard 5); LCall 2 (Proxy OClone); LRet 2 (Proxy OClone) (RClone (Some 5) true true)].
Proof.
  split; [exact from_lock_lockily|]. split.
  - repeat (apply Forall_cons || apply Forall_nil); cbn; repeat (split || intro); auto; discriminate.
  - vm_compute. auto.
Qed.

(** The first thread keeps its guard for writing; the others have to wait, and the value
    is its own. *)
Example C67_case_guards :
  match run from_lock (start from7 three) (repeat (0, 0) 8 ++ (2, 0) :: repeat (1, 0) 8) with
  | Some (s, ev) => guards_on 0 s = [(0, HM)] /\ value (fields s 0) = Some 5 /\
                    step from_lock s (2, 0) = None /\ step from_lock s (1, 0) = None
  | None => False
  end.
Proof. vm_compute. auto. Qed.
