(** Property C68: one async locked field among others.  Any number of fields, tasks and
    builders; any futures may be dropped. *)
From Coq Require Import List Bool Arith.
From Verif Require Import ProxyTypes MultiSpec TaskSpec RegisterSpec TaskModel TaskStory.
From Verif Require Import TaskOwn TaskRegister TaskCompare.
Import ListNotations.

(** C68.  Whatever a call on the field answers is the value last set through a write
    guard by anybody, or the first one, however many futures are dropped; a blocking call
    inside the runtime panics instead; only [read] and [write] can be dropped half-way. *)
Theorem C68_shows_last_set : forall inside builder f vs v0 ps l s ev before t c r after,
  (forall g n, lockily f (builder g n)) -> Forall (lockily f) ps -> vs f = Some v0 ->
  run inside builder (start vs ps) l = Some (s, ev) ->
  lock_story inside builder f (start vs ps) l = before ++ LRet t c r :: after ->
  truthful_async inside v0 before t c r.
Proof.
  intros inside builder f vs v0 ps l s ev before t c r after B P V R E.
  destruct (story_good inside builder f v0 B l _ [] _ _ (start_good inside f v0 vs ps V P) R) as [_ T].
  exact (T _ _ _ _ _ E).
Qed.
Print Assumptions C68_shows_last_set.

(** The field itself holds that value whenever nobody has the exclusive lock. *)
Theorem C68_holds_last_set : forall inside builder f vs v0 ps l s ev,
  (forall g n, lockily f (builder g n)) -> Forall (lockily f) ps -> vs f = Some v0 ->
  run inside builder (start vs ps) l = Some (s, ev) ->
  lw (fields s f) = None ->
  value (fields s f) = Some (last_set v0 (lock_story inside builder f (start vs ps) l)).
Proof.
  intros inside builder f vs v0 ps l s ev B P V R W.
  destruct (story_good inside builder f v0 B l _ [] _ _ (start_good inside f v0 vs ps V P) R) as [G _].
  exact (at_rest inside f v0 s _ G W).
Qed.
Print Assumptions C68_holds_last_set.

(** A guard for writing is the only guard of its field, whoever keeps it (or is about to
    drop it with an abandoned future) and whatever kind of field it is. *)
Theorem C68_guards_exclude : forall inside builder f v0 ps l s ev h,
  run inside builder (start v0 ps) l = Some (s, ev) ->
  In (f, h) (guards_on f s) -> h = HM \/ h = HW ->
  guards_on f s = [(f, h)].
Proof. intros inside builder f v0 ps l s ev h R. exact (exclusive _ _ _ _ _ _ _ _ _ R). Qed.
Print Assumptions C68_guards_exclude.

(** Comparing two fields, locked or lazy, panics inside the runtime; elsewhere it looks
    at both of them at one moment during the call. *)
Theorem C68_comparison : forall inside builder f v0 ps l s ev before t g r after,
  run inside builder (start v0 ps) l = Some (s, ev) ->
  lock_story inside builder f (start v0 ps) l = before ++ LRet t (EqWith g) r :: after ->
  if inside t then r = RPanic
  else exists b l1 l2 s1 ev1, r = RBool b /\ l = l1 ++ l2 /\
    run inside builder (start v0 ps) l1 = Some (s1, ev1) /\
    busy_with t (EqWith g) (lock_story inside builder f (start v0 ps) l1) /\
    calls_by t (lock_story inside builder f (start v0 ps) l1) = calls_by t before /\
    (b = true <-> value (fields s1 f) = value (fields s1 g)).
Proof.
  intros inside builder f v0 ps l s ev before t g r after R E. eapply compared; eauto.
  intros u th N. cbn in N. rewrite nth_error_map in N.
  destruct (nth_error ps u) as [p|]; [|discriminate]. injection N as <-. eauto.
Qed.
Print Assumptions C68_comparison.

(** Field 1 is lazy and built from field 0, which is locked.  One task writes 5 to field
    0 and keeps its guard for a while; one asks to write as well but its future is
    dropped; one reads field 1; one, outside the runtime, compares field 0 with field 2;
    one, inside, clones field 0. *)
Definition from_lock (f : fid) (_ : nat) : prog :=
  match f with
  | 0 => PEnd BPanic
  | S _ => PCall 0 LockRead (fun r => match r with RGuard v => PEnd (BOk (10 + v)) | _ => PEnd BPanic end)
  end.
Definition write_five : prog :=
  PCall 0 LockWrite (fun _ => PCall 0 (Proxy (GSet 5)) (fun _ =>
  PCall 0 (Proxy GDrop) (fun _ => PEnd (BOk 0)))).
Definition write_once : prog := PCall 0 LockWrite (fun _ => PEnd (BOk 0)).
Definition ask_lazy : prog := PCall 1 (Proxy ORead) (fun _ => PEnd (BOk 0)).
Definition compare : prog := PCall 0 (EqWith 2) (fun _ => PEnd (BOk 0)).
Definition copy : prog := PCall 0 (Proxy OClone) (fun _ => PEnd (BOk 0)).
Definition five : list prog := [write_five; write_once; ask_lazy; compare; copy].
Definition from7 (f : fid) : option nat :=
  match f with 0 => Some 7 | 1 => None | _ => Some 5 end.
Definition but_three (t : tid) : bool := negb (Nat.eqb t 3).
Definition gos (t : tid) (n : nat) : list (tid * act) := repeat (t, Go 0) n.
Definition mixed : list (tid * act) :=
  gos 0 6 ++ gos 1 2 ++ gos 4 3 ++ [(1, DropOwn)] ++ gos 1 1 ++ gos 3 2 ++ gos 0 3 ++ gos 3 6 ++ gos 2 14.

Lemma from_lock_lockily g n : lockily 0 (from_lock g n).
Proof.
  destruct g; cbn; auto. split; auto. intros [v| | | | | | |]; cbn; auto.
Qed.

Example C68_case :
  (forall g n, lockily 0 (from_lock g n)) /\ Forall (lockily 0) five /\
  match run but_three from_lock (start from7 five) mixed with
  | Some (s, ev) => value (fields s 1) = Some 15
  | None => False
  end /\
  lock_story but_three from_lock 0 (start from7 five) mixed =
    [LCall 0 LockWrite; LRet 0 LockWrite (RGuard 7); LCall 0 (Proxy (GSet 5)); LCall 1 LockWrite;
     LCall 4 (Proxy OClone); LRet 4 (Proxy OClone) RPanic; LRet 1 LockWrite RCancelled; LCall 3 (EqWith 2);
     LRet 0 (Proxy (GSet 5)) RUnit; LCall 0 (Proxy GDrop); LRet 3 (EqWith 2) (RBool true);
     LCall 2 LockRead; LRet 2 LockRead (RGuard 5)].
Proof.
  split; [exact from_lock_lockily|]. split.
  - repeat (apply Forall_cons || apply Forall_nil); cbn; repeat (split || intro); auto; discriminate.
  - vm_compute. auto.
Qed.

(** While the first task keeps its guard for writing, a second writer and a reader
    wait; the second writer is gone once its future is dropped. *)
Example C68_case_guards :
  match run but_three from_lock (start from7 five) (gos 0 7 ++ gos 1 2 ++ gos 2 7) with
  | Some (s, ev) => guards_on 0 s = [(0, HM)] /\ value (fields s 0) = Some 5 /\
                    lq (fields s 0) = [(1, true); (2, false)] /\
                    step but_three from_lock s (1, Go 0) = None /\
                    match step but_three from_lock s (1, DropOwn) with
                    | Some (s1, _) => lq (fields s1 0) = [(2, false)]
                    | None => False
                    end
  | None => False
  end.
Proof. vm_compute. auto 6. Qed.
