(** Properties C59 to C64: many async fields, many tasks, builders that call back into
    fields, futures that are dropped, tasks that are aborted.  All statements are about
    every schedule of the model TaskModel.v. *)
From Coq Require Import List Bool Arith Lia.
From Verif Require MultiModel GraphProofs GraphProps.
From Verif Require Import ProxyTypes MultiSpec GraphSpec.
From Verif Require Import TaskSpec TaskModel TaskOwn TaskOrder TaskTerm TaskTrap TaskGraph TaskClean.
Import ListNotations.

(** Small pieces of code for the examples: what a user writes. *)
Definition done : prog := PEnd (BOk 0).
(* reads [f], drops the guard, goes on with the value *)
Definition read_drop (f : fid) (k : nat -> prog) : prog :=
  PCall f (Proxy ORead) (fun r => match r with
    | RGuard v => PCall f (Proxy GDrop) (fun _ => k v)
    | _ => PEnd BPanic
    end).
(* reads [f] and keeps the guard *)
Definition read_keep (f : fid) (k : nat -> prog) : prog :=
  PCall f (Proxy ORead) (fun r => match r with RGuard v => k v | _ => PEnd BPanic end).
Definition lock_keep (f : fid) (k : nat -> prog) : prog :=
  PCall f LockRead (fun r => match r with RGuard v => k v | _ => PEnd BPanic end).
Definition read_once (f : fid) : prog := read_drop f (fun _ => done).
Definition clear_once (f : fid) : prog := PCall f (Proxy OClear) (fun _ => done).
Definition clone_once (f : fid) : prog := PCall f (Proxy OClone) (fun _ => done).
Definition lock_write_once (f : fid) (v : nat) : prog :=
  PCall f LockWrite (fun r => match r with
    | RGuard _ => PCall f (Proxy (GSet v)) (fun _ => done)
    | _ => PEnd BPanic
    end).
Definition compare (a b : fid) : prog := PCall a (EqWith b) (fun _ => done).

(** Builders of the examples: field 0 is 10; field [S f] is one more than field
    [f]. *)
Definition chain_builder (f : fid) (_ : nat) : prog :=
  match f with
  | 0 => PEnd (BOk 10)
  | S g => read_drop g (fun v => PEnd (BOk (S v)))
  end.

(** All tasks are inside the runtime; the first two threads are not. *)
Definition all_inside (t : tid) : bool := true.
Definition two_outside (t : tid) : bool := 1 <? t.

Lemma chain_orderly : builders_orderly (fun f => f) chain_builder.
Proof.
  intros [|f] n; simpl; [exact I|]. split; [|split].
  - intros _. split; [intros m E; inversion E; lia|intros g h []].
  - discriminate.
  - intros [v| | | | | | |]; simpl; try exact I.
    exists HR, []. rewrite Nat.eqb_refl. auto.
Qed.

(** C59.  When builders keep below the field they build and all code takes locks in
    descending order only, in every reachable state some task can go on or all are
    finished: whatever was dropped or aborted on the way, inside the runtime or
    not.  The number of tasks, fields and builders is not bounded. *)
Theorem C59_never_stuck : forall inside rank builder v0 ps l s ev,
  builders_orderly rank builder -> Forall (orderly rank None []) ps ->
  run inside builder (start v0 ps) l = Some (s, ev) ->
  (exists t r, step inside builder s (t, Go 0) = Some r) \/
  Forall (fun th => finished th = true) (tasks s).
Proof.
  intros inside rank builder v0 ps l s ev B P R. apply (never_stuck inside rank).
  - eapply reach_owned; eauto.
  - eapply reach_ok; eauto.
Qed.
Print Assumptions C59_never_stuck.

(** Under the same conditions no schedule goes on for ever. *)
Theorem C59_terminates : forall inside rank builder v0 ps,
  builders_orderly rank builder -> Forall (orderly rank None []) ps ->
  forall a : nat -> tid * act, exists n,
    run inside builder (start v0 ps) (map a (seq 0 n)) = None.
Proof.
  intros inside rank builder v0 ps B P. apply (no_endless_run inside rank builder B).
  - now apply start_ok.
  - now apply start_acc.
Qed.
Print Assumptions C59_terminates.

(** From every reachable state all tasks come to their end without anything more being
    dropped or aborted. *)
Theorem C59_completes : forall inside rank builder v0 ps l s ev,
  builders_orderly rank builder -> Forall (orderly rank None []) ps ->
  run inside builder (start v0 ps) l = Some (s, ev) ->
  exists l' s' ev', run inside builder s l' = Some (s', ev') /\
    Forall undisturbed l' /\ Forall (fun th => finished th = true) (tasks s').
Proof.
  intros inside rank builder v0 ps l s ev B P R.
  pose proof (start_ok rank v0 ps P) as OK. apply (completes inside rank builder B).
  - eapply reach_owned; eauto.
  - eapply reach_ok; eauto.
  - eapply reach_acc; eauto using start_acc.
Qed.
Print Assumptions C59_completes.

(** A case: two readers of field 2 (built from 1, built from 0), one that clears field
    1 and one, outside the runtime, that compares field 2 with field 0. *)
Example C59_case_hypotheses :
  builders_orderly (fun f => f) chain_builder /\
  Forall (orderly (fun f => f) None []) [read_once 2; read_once 2; clear_once 1; compare 2 0].
Proof.
  split; [apply chain_orderly|].
  assert (R : orderly (fun f => f) None [] (read_once 2)).
  { simpl. split; [|split; [discriminate|]].
    - intros _. split; [discriminate|intros g h []].
    - intros [v| | | | | | |]; simpl; try exact I. exists HR, []. auto. }
  assert (L : forall f, lower (fun x => x) None [] f) by (intros f; split; [discriminate|intros g h []]).
  constructor; [exact R|]. constructor; [exact R|].
  constructor; [simpl; split; [auto|split; [discriminate|auto]]|].
  constructor; [|constructor]. simpl. split; [auto|]. split; [|auto].
  intros g E. inversion E. lia.
Qed.

(* task 0 builds field 2 down to field 0 and is dropped there; task 1, which waits for
   field 2, goes on and builds everything again *)
Example C59_case_run :
  match run all_inside chain_builder (start (fun _ => None) [read_once 2; read_once 2])
          (repeat (0, Go 0) 13 ++ repeat (1, Go 0) 2 ++ [(0, DropOwn)] ++ repeat (0, Go 0) 4
           ++ repeat (1, Go 0) 41) with
  | Some (s, ev) => map finished (tasks s) = [true; true] /\
                    map (fun f => value (fields s f)) [0; 1; 2] = [Some 10; Some 11; Some 12] /\
                    map (fun f => tstarts f ev) [0; 1; 2] = [1; 2; 2]
  | None => False
  end.
Proof. vm_compute. auto. Qed.

(** Touching only lower fields is not enough by itself.  A read of an async lazy field
    asks for the exclusive lock even when the value is there, so two builders that keep
    read guards in opposite orders deadlock with nobody writing. *)
Definition keeping_builder (f : fid) (_ : nat) : prog :=
  match f with
  | 3 => read_keep 1 (fun _ => read_keep 2 (fun _ => done))
  | 4 => read_keep 2 (fun _ => read_keep 1 (fun _ => done))
  | _ => done
  end.

(** Every field that the code mentions is below [n]. *)
Fixpoint touches_below (n : nat) (p : prog) : Prop :=
  match p with
  | PEnd _ => True
  | PCall f c k => f < n /\ (forall g, c = EqWith g -> g < n) /\ forall r, touches_below n (k r)
  end.

Theorem C59_builder_guards_refuted :
  (forall f n, touches_below f (keeping_builder f n)) /\
  let ps := [read_once 3; read_once 4] in
  Forall (orderly (fun _ => 0) None []) ps /\ Forall changes_nothing ps /\
  exists l s ev,
    run all_inside keeping_builder (start (fun f => if f <? 3 then Some 7 else None) ps) l = Some (s, ev) /\
    Forall undisturbed l /\
    (forall t n, step all_inside keeping_builder s (t, Go n) = None) /\
    Forall (fun th => finished th = false) (tasks s).
Proof.
  split; [|split; [|split]].
  - assert (K : forall m f k, f < m -> (forall v, touches_below m (k v)) -> touches_below m (read_keep f k)).
    { intros m f k L H. split; [exact L|]. split; [discriminate|]. intros [v| | | | | | |]; simpl; auto. }
    intros f n. do 5 (destruct f as [|f]; [simpl; repeat (first [exact I | apply K; [lia|intros ?]])|]).
    exact I.
  - assert (R : forall f, orderly (fun _ => 0) None [] (read_once f)).
    { intros f. simpl. split; [intros _; split; [discriminate|intros g h []]|]. split; [discriminate|].
      intros [v| | | | | | |]; simpl; try exact I. exists HR, []. rewrite Nat.eqb_refl. auto. }
    repeat (apply Forall_cons; [apply R|]). constructor.
  - assert (R : forall f, changes_nothing (read_once f)).
    { intros f. simpl. split; [exact I|]. intros [v| | | | | | |]; simpl; auto. }
    repeat (apply Forall_cons; [apply R|]). constructor.
  - exists (repeat (0, Go 0) 11 ++ repeat (1, Go 0) 11 ++ repeat (0, Go 0) 2 ++ repeat (1, Go 0) 2).
    eexists. eexists. split; [vm_compute; reflexivity|]. split; [repeat constructor|]. split.
    + intros t n. do 2 (destruct t as [|t]; [reflexivity|]). destruct t; reflexivity.
    + repeat constructor.
Qed.
Print Assumptions C59_builder_guards_refuted.

(** C60.  Locks and places in queues belong to tasks that are still there: nothing is
    left of a task that is finished, however it came to its end. *)
Theorem C60_locks_have_owners : forall inside builder v0 ps l s ev f t,
  run inside builder (start v0 ps) l = Some (s, ev) ->
  lw (fields s f) = Some t \/ In t (lr (fields s f)) \/ (exists w, In (t, w) (lq (fields s f))) ->
  exists th, nth_error (tasks s) t = Some th /\ finished th = false.
Proof.
  intros inside builder v0 ps l s ev f t R H.
  pose proof (reach_owned _ _ _ _ _ _ _ R) as O.
  destruct (nth_error (tasks s) t) as [th|] eqn:N.
  - exists th. split; [reflexivity|]. destruct (finished th) eqn:FI; [|reflexivity]. exfalso.
    pose proof (finished_owns th FI) as E.
    assert (OA : owns_at s t = []) by (unfold owns_at; rewrite N; exact E).
    destruct (clean s t f O) as (A & B & C); [rewrite OA; reflexivity..|].
    destruct H as [H|[H|[w H]]]; [tauto|tauto|exact (C w H)].
  - exfalso. assert (OA : owns_at s t = []) by (unfold owns_at; rewrite N; reflexivity).
    destruct (clean s t f O) as (A & B & C); [rewrite OA; reflexivity..|].
    destruct H as [H|[H|[w H]]]; [tauto|tauto|exact (C w H)].
Qed.
Print Assumptions C60_locks_have_owners.

(** A task that runs its own code, with no call under way, has the locks of the guards
    it keeps and no others, and waits nowhere. *)
Theorem C60_only_kept_guards : forall inside builder v0 ps l s ev t th p,
  run inside builder (start v0 ps) l = Some (s, ev) ->
  nth_error (tasks s) t = Some th -> code_of th = User p -> stack th = [] ->
  only_locks_of (fields s) t (held th).
Proof.
  intros inside builder v0 ps l s ev t th p R N C ST.
  apply (only_locks s t th); [eapply reach_owned; eauto|exact N|].
  unfold owns. rewrite C, ST. simpl. apply app_nil_r.
Qed.
Print Assumptions C60_only_kept_guards.

(** A task that can be aborted can be aborted to the end: in a few steps of its own,
    that nothing can hold up, it is finished, has no locks, waits nowhere; no field has
    changed and nothing else is seen of it. *)
Theorem C60_abort_frees : forall inside builder v0 ps l s ev t s1 ev1,
  run inside builder (start v0 ps) l = Some (s, ev) ->
  step inside builder s (t, Abort) = Some (s1, ev1) ->
  exists n s2, run inside builder s1 (repeat (t, Go 0) n) = Some (s2, []) /\
    only_locks_of (fields s2) t [] /\ same_values (fields s) (fields s2) /\
    exists th, nth_error (tasks s2) t = Some th /\ finished th = true.
Proof.
  intros inside builder v0 ps l s ev t s1 ev1 R S.
  eapply aborted; [eapply reach_owned; eauto|exact S].
Qed.
Print Assumptions C60_abort_frees.

(** The same for a call whose future is dropped by the code that made it: the call
    counts as cancelled, and the task is left with the guards it had kept before the
    call. *)
Theorem C60_drop_frees : forall inside builder v0 ps l s ev t s1 ev1 th,
  run inside builder (start v0 ps) l = Some (s, ev) ->
  nth_error (tasks s) t = Some th ->
  step inside builder s (t, DropOwn) = Some (s1, ev1) ->
  exists n s2 f c (k : res nat nat -> prog),
    run inside builder s1 (repeat (t, Go 0) n) = Some (s2, [TRet t f c RCancelled]) /\
    only_locks_of (fields s2) t (own_guards th) /\ same_values (fields s) (fields s2) /\
    nth_error (tasks s2) t = Some (mktask (User (k RCancelled)) (own_guards th) []).
Proof.
  intros inside builder v0 ps l s ev t s1 ev1 th R N S.
  eapply dropped; [eapply reach_owned; eauto|exact N|exact S].
Qed.
Print Assumptions C60_drop_frees.

(** A case: a task keeps the guard of field 5, asks for field 2 and is three builders
    deep (four exclusive locks and a read lock) when its call is dropped, or it is
    aborted. *)
Example C60_case :
  let s0 := start (fun f => if f =? 5 then Some 7 else None) [read_keep 5 (fun _ => read_once 2)] in
  match run all_inside chain_builder s0 (repeat (0, Go 0) 19) with
  | Some (s, _) =>
      map (fun f => lw (fields s f)) [0; 1; 2; 5] = [Some 0; Some 0; Some 0; None] /\
      lr (fields s 5) = [0] /\
      match run all_inside chain_builder s ((0, DropOwn) :: repeat (0, Go 0) 4) with
      | Some (s1, ev) => map (fun f => lw (fields s1 f)) [0; 1; 2; 5] = [None; None; None; None] /\
                         lr (fields s1 5) = [0] /\ ev = [TRet 0 2 (Proxy ORead) RCancelled]
      | None => False
      end /\
      match run all_inside chain_builder s ((0, Abort) :: repeat (0, Go 0) 5) with
      | Some (s1, ev) => map (fun f => lw (fields s1 f)) [0; 1; 2; 5] = [None; None; None; None] /\
                         lr (fields s1 5) = [] /\ ev = []
      | None => False
      end
  | None => False
  end.
Proof. vm_compute. repeat split. Qed.

(** C61.  A builder that cannot end without waiting for the lock of its own field never
    ends, unless the calls it makes are dropped (it is under a timeout of its
    own). *)
Theorem C61_self_dependent_never_ends : forall inside builder f v0 ps l s ev,
  (forall n, must_await f (builder f n)) -> Forall builders_left_alone l ->
  run inside builder (start v0 ps) l = Some (s, ev) ->
  forall t o, ~ In (TEnd t f o) ev.
Proof.
  intros inside builder f v0 ps l s ev MA BA R t o I.
  destruct (self_run inside builder f MA l _ _ _ BA R (start_owned v0 ps) (self_start f v0 ps)) as [_ NB].
  rewrite Forall_forall in NB. exact (NB _ I eq_refl).
Qed.
Print Assumptions C61_self_dependent_never_ends.

(** The call that started such a builder is never resumed while its task is left
    alone: it stays suspended, with what it was called for, in every
    continuation. *)
Theorem C61_self_dependent_read_never_returns :
  forall inside builder f v0 ps l s ev t th top fr rest,
  (forall n, must_await f (builder f n)) -> Forall builders_left_alone l ->
  run inside builder (start v0 ps) l = Some (s, ev) ->
  nth_error (tasks s) t = Some th -> stack th = top ++ fr :: rest -> fr_field fr = f ->
  forall l' s' ev', Forall builders_left_alone l' -> Forall (spares t) l' ->
  run inside builder s l' = Some (s', ev') ->
  exists th' top', nth_error (tasks s') t = Some th' /\ stack th' = top' ++ fr :: rest.
Proof.
  intros inside builder f v0 ps l s ev t th top fr rest MA BA R N ST E l' s' ev' BA' SP R'.
  destruct (self_run inside builder f MA l _ _ _ BA R (start_owned v0 ps) (self_start f v0 ps)) as [[O SO] _].
  eapply self_stays; eauto.
Qed.
Print Assumptions C61_self_dependent_read_never_returns.

(** A task that calls into a field while the builder of that very field is running
    further down in its own futures never gets an answer, unless something of it is
    dropped. *)
Theorem C61_reentrant_call_never_returns : forall inside builder v0 ps l s ev t th f c k,
  run inside builder (start v0 ps) l = Some (s, ev) ->
  nth_error (tasks s) t = Some th ->
  code_of th = User (PCall f c k) -> takes_lock c = true -> blocking c = false \/ inside t = false ->
  (exists fr, In fr (stack th) /\ fr_field fr = f) ->
  forall l' s' ev', Forall (spares t) l' -> run inside builder s l' = Some (s', ev') ->
  (forall g c0 r, ~ In (TRet t g c0 r) ev') /\
  exists th', nth_error (tasks s') t = Some th' /\ stack th' = stack th /\ held th' = held th.
Proof.
  intros inside builder v0 ps l s ev t th f c k R N C TL BL (fr & I & E) l' s' ev' SP R'.
  assert (IO : In (f, KW) (own_held (held th) ++ own_stack (stack th))).
  { apply in_or_app. right. rewrite <- E. now apply frame_owns. }
  destruct (own_lock inside builder s t th f c k KW (reach_owned _ _ _ _ _ _ _ R) N C TL BL IO
              (or_introl eq_refl) l' s' ev' SP R') as (NR & th' & N' & S1 & S2 & _).
  split; [exact NR|]. exists th'. auto.
Qed.
Print Assumptions C61_reentrant_call_never_returns.

(** A circle of any length: when every builder of a set of unset fields needs the value
    of some field of the set, and nobody stores into them, none of them ever gets a
    value, none of the builders ever ends, and the only answer that a call asking for
    one of these values can get is that it was dropped. *)
Theorem C61_circle_never_ends : forall inside builder (C : fid -> Prop) v0 ps l s ev,
  (forall f n, C f -> must_read C (builder f n)) ->
  (forall f n, never_stores C (builder f n)) ->
  Forall (never_stores C) ps -> (forall f, C f -> v0 f = None) -> Forall builders_left_alone l ->
  run inside builder (start v0 ps) l = Some (s, ev) ->
  (forall f, C f -> value (fields s f) = None) /\
  (forall t f o, C f -> ~ In (TEnd t f o) ev) /\
  (forall t f c r, C f -> needs_value c -> In (TRet t f c r) ev -> r = RCancelled).
Proof.
  intros inside builder C v0 ps l s ev MR NS P V BA R. destruct (cyc_start C v0 ps V P) as [U K].
  destruct (cyc_run inside builder C MR NS l _ _ _ BA R U K) as [[U' _] NB].
  rewrite Forall_forall in NB. split; [exact U'|]. split.
  - intros t f o Cf I. exact (NB _ I Cf).
  - intros t f c r Cf NV I. exact (NB _ I Cf NV).
Qed.
Print Assumptions C61_circle_never_ends.

(** Unlike a thread, a task inside the runtime is never trapped for good: whenever it
    cannot go on it can be aborted, and then everything it had locked is free. *)
Theorem C61_abort_recovers : forall inside builder v0 ps l s ev t th n,
  run inside builder (start v0 ps) l = Some (s, ev) ->
  nth_error (tasks s) t = Some th -> finished th = false -> inside t = true ->
  step inside builder s (t, Go n) = None ->
  exists m s2, run inside builder s ((t, Abort) :: repeat (t, Go 0) m) = Some (s2, []) /\
    only_locks_of (fields s2) t [] /\ same_values (fields s) (fields s2) /\
    exists th', nth_error (tasks s2) t = Some th' /\ finished th' = true.
Proof.
  intros inside builder v0 ps l s ev t th n R N NF I S.
  destruct (blocking_run inside builder l _ _ _ R (blocking_start inside v0 ps)) as [BO _].
  assert (TS : tstep inside builder (fields s) t n th = None).
  { unfold step in S. simpl in S. rewrite N in S.
    destruct (tstep inside builder (fields s) t n th) as [[[F' th'] e]|]; [discriminate|reflexivity]. }
  destruct (waiting_abort inside builder (fields s) t th n I (BO _ _ N) NF TS) as [[[F1 th1] e1] A].
  assert (E1 : e1 = []).
  { simpl in A. rewrite NF in A. destruct (innermost (fields s) t (code_of th)) as [[F2 gs]|]; [|discriminate].
    now inversion A. }
  assert (ST : step inside builder s (t, Abort) = Some (mksys F1 (set_nth t (tasks s) th1), e1)).
  { unfold step. simpl fst. simpl snd. rewrite N, A. reflexivity. }
  destruct (C60_abort_frees inside builder v0 ps l s ev t _ _ R ST) as (m & s2 & R2 & X).
  exists m, s2. split; [|exact X]. subst e1. cbn [run]. rewrite ST.
  exact (f_equal (fun x => match x with Some (s0, e2) => Some (s0, [] ++ e2) | None => None end) R2).
Qed.
Print Assumptions C61_abort_recovers.

(** The condition that the builders' own calls are left alone is needed: a builder with
    a timeout around the call on its own field ends when the timeout fires. *)
Definition impatient_builder (f : fid) (_ : nat) : prog :=
  PCall f (Proxy ORead) (fun r => match r with RCancelled => PEnd (BOk 5) | _ => PEnd BPanic end).

Theorem C61_timeout_in_builder_refuted :
  (forall n, must_await 0 (impatient_builder 0 n)) /\
  exists l s ev,
    run all_inside impatient_builder (start (fun _ => None) [read_once 0]) l = Some (s, ev) /\
    In (TEnd 0 0 (BOk 5)) ev /\ value (fields s 0) = Some 5.
Proof.
  split; [intros n; left; auto|].
  exists (repeat (0, Go 0) 7 ++ [(0, DropIn 0)] ++ repeat (0, Go 0) 5). do 2 eexists.
  split; [vm_compute; reflexivity|]. split; [simpl; auto|reflexivity].
Qed.
Print Assumptions C61_timeout_in_builder_refuted.

(** Cases: a builder that reads its own field; two builders that read each other. *)
Definition own_builder (f : fid) (_ : nat) : prog := read_drop f (fun v => PEnd (BOk (S v))).
Definition mutual_builder (f : fid) (_ : nat) : prog :=
  match f with
  | 0 => read_drop 1 (fun v => PEnd (BOk v))
  | 1 => read_drop 0 (fun v => PEnd (BOk v))
  | _ => done
  end.

Example C61_case_self : forall n, must_await 0 (own_builder 0 n).
Proof. intros n. simpl. left. auto. Qed.

(* the task is inside the builder of field 0, at a call on field 0; two steps later it
   waits for itself; a second reader waits behind it until the first is aborted *)
Example C61_case_self_run :
  match run all_inside own_builder (start (fun _ => None) [read_once 0; read_once 0]) (repeat (0, Go 0) 5) with
  | Some (s, ev) =>
      ev = [TStart 0 0] /\
      match nth_error (tasks s) 0 with
      | Some th => map fr_field (stack th) = [0] /\
                   match code_of th with
                   | User (PCall f c _) => (f, takes_lock c, blocking c) = (0, true, false)
                   | _ => False
                   end
      | None => False
      end /\
      match run all_inside own_builder s (repeat (0, Go 0) 2 ++ repeat (1, Go 0) 2) with
      | Some (s1, ev1) =>
          ev1 = [] /\ step all_inside own_builder s1 (0, Go 0) = None /\
          step all_inside own_builder s1 (1, Go 0) = None /\
          match run all_inside own_builder s1 ((0, Abort) :: repeat (0, Go 0) 2 ++ repeat (1, Go 0) 4) with
          | Some (s2, ev2) => map finished (tasks s2) = [true; false] /\ ev2 = [TStart 1 0]
          | None => False
          end
      | None => False
      end
  | None => False
  end.
Proof. vm_compute. repeat split. Qed.

Example C61_case_circle :
  let C := fun f => f < 2 in
  (forall f n, C f -> must_read C (mutual_builder f n)) /\
  (forall f n, never_stores C (mutual_builder f n)) /\
  Forall (never_stores C) [read_once 0; read_once 1; clear_once 0].
Proof.
  simpl. split; [|split].
  - intros [|[|f]] n H; simpl; [left|left|]; auto with arith. lia.
  - intros [|[|f]] n; simpl; auto; (split; [auto|intros [v| | | | | | |]; simpl; auto]).
  - assert (R : forall f, never_stores (fun x => x < 2) (read_once f))
      by (intros f; simpl; split; [auto|intros [v| | | | | | |]; simpl; auto]).
    repeat (apply Forall_cons; [first [apply R|simpl; auto]|]). constructor.
Qed.

(* one task alone goes round once and then waits for itself; dropping its call gives the
   answer that it was dropped *)
Example C61_case_circle_run :
  match run all_inside mutual_builder (start (fun _ => None) [read_once 0]) (repeat (0, Go 0) 12) with
  | Some (s, ev) => ev = [TStart 0 0; TStart 0 1] /\
      step all_inside mutual_builder s (0, Go 0) = None /\
      match run all_inside mutual_builder s ((0, DropOwn) :: repeat (0, Go 0) 3) with
      | Some (s1, ev1) => map finished (tasks s1) = [true] /\ ev1 = [TRet 0 0 (Proxy ORead) RCancelled]
      | None => False
      end
  | None => False
  end.
Proof. vm_compute. repeat split. Qed.

(** C62.  Cloning, printing or comparing an async field inside a tokio runtime always
    panics; outside it never does.  Such a call is never dropped half way. *)
Theorem C62_inside_panics : forall inside builder v0 ps l s ev t f c r,
  run inside builder (start v0 ps) l = Some (s, ev) ->
  blocking c = true -> In (TRet t f c r) ev ->
  r <> RCancelled /\ (r = RPanic <-> inside t = true).
Proof.
  intros inside builder v0 ps l s ev t f c r R B I.
  destruct (blocking_run inside builder l _ _ _ R (blocking_start inside v0 ps)) as [_ BR].
  rewrite Forall_forall in BR. exact (BR _ I B).
Qed.
Print Assumptions C62_inside_panics.

(** The panic leaves every field as it was, locks included, and does not wait for
    anything. *)
Theorem C62_inside_leaves_fields : forall inside builder v0 ps l s ev t th f c p k n,
  run inside builder (start v0 ps) l = Some (s, ev) ->
  nth_error (tasks s) t = Some th -> code_of th = Call f c p k -> blocking c = true -> inside t = true ->
  exists s' ev', step inside builder s (t, Go n) = Some (s', ev') /\ fields s' = fields s.
Proof.
  intros inside builder v0 ps l s ev t th f c p k n R N C B I.
  destruct (blocking_run inside builder l _ _ _ R (blocking_start inside v0 ps)) as [BO _].
  pose proof (BO _ _ N) as K.
  assert (M : exists r, tstep inside builder (fields s) t n th = Some r).
  { destruct K as (K & _). rewrite C in K. destruct K as [K _]. specialize (K B).
    unfold tstep. rewrite C. rewrite I in *.
    destruct p; simpl in K; try discriminate; simpl; unfold blocking_read; eexists; reflexivity. }
  destruct M as [[[F' th'] e] M]. unfold step. simpl. rewrite N, M.
  do 2 eexists. split; [reflexivity|]. simpl. eapply blocking_quiet; eauto.
Qed.
Print Assumptions C62_inside_leaves_fields.

(** So a derived Clone of a struct with async fields cannot be used where its other
    methods are used: the same value, inside and outside. *)
Theorem C62_clone_in_async_code_refuted :
  (exists s, run all_inside chain_builder (start (fun _ => Some 7) [clone_once 0]) (repeat (0, Go 0) 3)
     = Some (s, [TRet 0 0 (Proxy OClone) RPanic])) /\
  (exists s, run two_outside chain_builder (start (fun _ => Some 7) [clone_once 0]) (repeat (0, Go 0) 6)
     = Some (s, [TRet 0 0 (Proxy OClone) (RClone (Some 7) true true)])).
Proof. split; eexists; vm_compute; reflexivity. Qed.
Print Assumptions C62_clone_in_async_code_refuted.

(** Cases: task 2 compares inside the runtime; at the same time thread 0 compares
    outside. *)
Example C62_case :
  match run two_outside chain_builder
          (start (fun f => Some (if f =? 0 then 3 else 4)) [compare 0 0; compare 0 1; compare 0 0])
          ([(0, Go 0); (0, Go 0)] ++ repeat (2, Go 0) 3 ++ repeat (1, Go 0) 7 ++ repeat (0, Go 0) 5) with
  | Some (s, ev) => ev = [TRet 2 0 (EqWith 0) RPanic; TRet 1 0 (EqWith 1) (RBool false); TRet 0 0 (EqWith 0) (RBool true)]
  | None => False
  end.
Proof. vm_compute. reflexivity. Qed.

(** C63.  At any moment of any schedule, whatever the tasks read and in whatever order,
    whatever was dropped from outside: a field that has a value has the one it is worth
    (specification in GraphSpec.v). *)
Theorem C63_async_values : forall inside v0 bld ps l s ev f v,
  (forall g, only_reads (bld g)) -> Forall changes_nothing ps -> Forall builders_left_alone l ->
  run inside (fun g _ => bld g) (start v0 ps) l = Some (s, ev) ->
  value (fields s f) = Some v -> means v0 bld f (BOk v).
Proof.
  intros inside v0 bld ps l s ev f v P U BA R V.
  destruct (good_run inside v0 bld P l _ _ _ BA R (good_start v0 bld ps U)) as [(_ & (S1 & _) & _) _].
  now apply S1.
Qed.
Print Assumptions C63_async_values.

(** So any two programs, by any numbers of tasks and in any orders, agree. *)
Theorem C63_async_order_irrelevant : forall inside inside' v0 bld ps l s ev ps' l' s' ev' f v v',
  (forall g, only_reads (bld g)) -> Forall changes_nothing ps -> Forall changes_nothing ps' ->
  Forall builders_left_alone l -> Forall builders_left_alone l' ->
  run inside (fun g _ => bld g) (start v0 ps) l = Some (s, ev) ->
  run inside' (fun g _ => bld g) (start v0 ps') l' = Some (s', ev') ->
  value (fields s f) = Some v -> value (fields s' f) = Some v' -> v = v'.
Proof.
  intros inside inside' v0 bld ps l s ev ps' l' s' ev' f v v' P U U' BA BA' R R' V V'.
  assert (M : means v0 bld f (BOk v)) by exact (C63_async_values _ _ _ _ _ _ _ _ _ P U BA R V).
  assert (M' : means v0 bld f (BOk v')) by exact (C63_async_values _ _ _ _ _ _ _ _ _ P U' BA' R' V').
  pose proof (GraphProofs.means_unique _ _ _ _ M _ M') as E. now inversion E.
Qed.
Print Assumptions C63_async_order_irrelevant.

(** A call that returns a guard shows that value. *)
Theorem C63_async_read : forall inside v0 bld ps l s ev t f c v,
  (forall g, only_reads (bld g)) -> Forall changes_nothing ps -> Forall builders_left_alone l ->
  run inside (fun g _ => bld g) (start v0 ps) l = Some (s, ev) ->
  In (TRet t f c (RGuard v)) ev -> means v0 bld f (BOk v).
Proof.
  intros inside v0 bld ps l s ev t f c v P U BA R I.
  destruct (good_run inside v0 bld P l _ _ _ BA R (good_start v0 bld ps U)) as [_ RR].
  rewrite Forall_forall in RR. exact (RR _ I).
Qed.
Print Assumptions C63_async_read.

(** A builder that succeeds is started at most once, and at most once more for each
    time that a call is dropped or a task aborted. *)
Theorem C63_async_builder_starts : forall inside v0 bld ps l s ev f v,
  (forall g, only_reads (bld g)) -> Forall changes_nothing ps -> Forall builders_left_alone l ->
  run inside (fun g _ => bld g) (start v0 ps) l = Some (s, ev) ->
  means v0 bld f (BOk v) -> tstarts f ev <= 1 + disturbances l.
Proof.
  intros inside v0 bld ps l s ev f v P U BA R M.
  exact (proj2 (proj2 (once_run inside v0 bld P f v M l _ _ _ 0 0 BA R
                         (good_start v0 bld ps U) (once_start v0 f ps)))).
Qed.
Print Assumptions C63_async_builder_starts.

(** Nothing better than that holds: one drop, two starts. *)
Theorem C63_at_most_once_refuted : exists bld ps l s ev,
  (forall g, only_reads (bld g)) /\ Forall changes_nothing ps /\ Forall builders_left_alone l /\
  run all_inside (fun g _ => bld g) (start (fun _ => None) ps) l = Some (s, ev) /\
  means (fun _ => None) bld 0 (BOk 10) /\ disturbances l = 1 /\ tstarts 0 ev = 2.
Proof.
  exists (fun f => chain_builder f 0), [read_once 0; read_once 0],
    (repeat (0, Go 0) 5 ++ [(0, Abort)] ++ repeat (0, Go 0) 2 ++ repeat (1, Go 0) 14).
  do 2 eexists. split; [|split; [|split; [|split; [vm_compute; reflexivity|split; [|split; reflexivity]]]]].
  - intros [|g]; simpl; [exact I|]. split; [exact I|]. intros [v| | | | | | |]; simpl; auto.
  - assert (R : changes_nothing (read_once 0)) by (split; [exact I|]; intros [v| | | | | | |]; simpl; auto).
    repeat (apply Forall_cons; [exact R|]). constructor.
  - repeat constructor.
  - apply means_built; [reflexivity|constructor].
Qed.
Print Assumptions C63_at_most_once_refuted.

(** A sync and an async struct with the same builders agree. *)
Theorem C63_sync_async_agree : forall inside v0 bld ps l s ev ps' l' s' ev' f v v',
  (forall g, only_reads (bld g)) -> Forall changes_nothing ps -> Forall changes_nothing ps' ->
  Forall builders_left_alone l ->
  run inside (fun g _ => bld g) (start v0 ps) l = Some (s, ev) ->
  MultiModel.run (fun g _ => bld g) (MultiModel.start v0 ps') l' = Some (s', ev') ->
  value (fields s f) = Some v -> MultiModel.value (MultiModel.fields s' f) = Some v' -> v = v'.
Proof.
  intros inside v0 bld ps l s ev ps' l' s' ev' f v v' P U U' BA R R' V V'.
  assert (M : means v0 bld f (BOk v)) by exact (C63_async_values _ _ _ _ _ _ _ _ _ P U BA R V).
  assert (M' : means v0 bld f (BOk v')) by (eapply (GraphProps.C18_sync_values v0 bld ps'); eauto).
  pose proof (GraphProofs.means_unique _ _ _ _ M _ M') as E. now inversion E.
Qed.
Print Assumptions C63_sync_async_agree.

(** A case: two tasks that read 2 and 0 in different orders, the first dropped and
    asking again. *)
Definition stubborn (a b : fid) : prog :=
  PCall a (Proxy ORead) (fun r => match r with
    | RCancelled => read_drop a (fun _ => read_once b)
    | _ => done
    end).

Example C63_case :
  Forall changes_nothing [stubborn 2 0; read_drop 0 (fun _ => read_once 2)] /\
  match run all_inside chain_builder (start (fun _ => None) [stubborn 2 0; read_drop 0 (fun _ => read_once 2)])
          (repeat (0, Go 0) 13 ++ [(0, DropOwn)] ++ repeat (0, Go 0) 4 ++ repeat (1, Go 0) 51 ++ repeat (0, Go 0) 18) with
  | Some (s, ev) => map finished (tasks s) = [true; true] /\
                    map (fun f => value (fields s f)) [0; 1; 2; 3] = [Some 10; Some 11; Some 12; None] /\
                    map (fun f => tstarts f ev) [0; 1; 2; 3] = [1; 2; 2; 0]
  | None => False
  end.
Proof.
  split; [|vm_compute; repeat split].
  assert (R : forall f, changes_nothing (read_once f))
    by (intros f; split; [exact I|]; intros [v| | | | | | |]; simpl; auto).
  assert (D : forall f k, (forall v, changes_nothing (k v)) -> changes_nothing (read_drop f k))
    by (intros f k H; split; [exact I|]; intros [v| | | | | | |]; simpl; auto).
  apply Forall_cons; [|apply Forall_cons; [apply D; intros; apply R|constructor]].
  split; [exact I|]. intros [v| | | | | | |]; try exact I. apply D. intros; apply R.
Qed.

(** C64.  A task that keeps a guard and asks the same field again for more than it can
    share waits for itself: it never gets an answer, unless its call is dropped.  A lazy
    read counts as such: it always asks for the exclusive lock. *)
Theorem C64_own_guard_blocks : forall inside builder v0 ps l s ev t th f h c k,
  run inside builder (start v0 ps) l = Some (s, ev) ->
  nth_error (tasks s) t = Some th ->
  In (f, h) (held th) -> h <> HNone ->
  code_of th = User (PCall f c k) -> takes_lock c = true ->
  h <> HR \/ shares_lock c = false -> blocking c = false \/ inside t = false ->
  forall l' s' ev', Forall (spares t) l' -> run inside builder s l' = Some (s', ev') ->
  (forall g c0 r, ~ In (TRet t g c0 r) ev') /\
  exists th', nth_error (tasks s') t = Some th' /\ held th' = held th.
Proof.
  intros inside builder v0 ps l s ev t th f h c k R N I NH C TL K BL l' s' ev' SP R'.
  pose proof (held_owns _ _ _ I NH) as IO.
  set (kd := match h with HR => KR | _ => KW end) in *.
  assert (K' : kd = KW \/ (kd = KR /\ shares_lock c = false)).
  { unfold kd. destruct h; auto. right. destruct K as [K|K]; [congruence|auto]. }
  destruct (own_lock inside builder s t th f c k kd (reach_owned _ _ _ _ _ _ _ R) N C TL BL
              (in_or_app _ _ _ (or_introl IO)) K' l' s' ev' SP R') as (NR & th' & N' & _ & S2 & _).
  split; [exact NR|]. exists th'. auto.
Qed.
Print Assumptions C64_own_guard_blocks.

(** Tasks that only share (compare, clone, print, lock for reading) never wait, however
    many guards they keep, also when some are dropped or aborted. *)
Theorem C64_sharers_never_wait : forall inside builder v0 ps l s ev,
  Forall only_shares ps ->
  run inside builder (start v0 ps) l = Some (s, ev) ->
  forall t th f c p k n, nth_error (tasks s) t = Some th -> code_of th = Call f c p k ->
  exists r, step inside builder s (t, Go n) = Some r.
Proof.
  intros inside builder v0 ps l s ev P R t th f c p k n N C.
  destruct (share_start v0 ps P) as [U S]. destruct (share_run inside builder l _ _ _ R U S) as [U' S'].
  destruct (share_moves inside builder (fields s) t n th f c p k U' (S' _ _ N) C) as [[[F1 th1] e1] T].
  unfold step. simpl. rewrite N, T. eexists; reflexivity.
Qed.
Print Assumptions C64_sharers_never_wait.

(** But sharing is only safe while nobody asks for more: two read guards of the same
    field taken one after the other deadlock with a writer that comes in between. *)
Theorem C64_second_read_guard_refuted : exists l s ev,
  run all_inside chain_builder (start (fun _ => Some 7) [lock_keep 0 (fun _ => lock_keep 0 (fun _ => done)); lock_write_once 0 8]) l
    = Some (s, ev) /\
  Forall undisturbed l /\
  (forall t n, step all_inside chain_builder s (t, Go n) = None) /\
  Forall (fun th => finished th = false) (tasks s).
Proof.
  exists (repeat (0, Go 0) 4 ++ repeat (1, Go 0) 2 ++ repeat (0, Go 0) 2). do 2 eexists.
  split; [vm_compute; reflexivity|]. split; [repeat constructor|]. split.
  - intros t n. do 2 (destruct t as [|t]; [reflexivity|]). destruct t; reflexivity.
  - repeat constructor.
Qed.
Print Assumptions C64_second_read_guard_refuted.

(** So does the comparison of a field with itself outside the runtime; and the thread
    that compares can then be neither dropped nor aborted. *)
Theorem C64_self_comparison_refuted : exists l s ev,
  run two_outside chain_builder (start (fun _ => Some 7) [compare 0 0; done; lock_write_once 0 8]) l = Some (s, ev) /\
  Forall undisturbed l /\
  (forall t n, step two_outside chain_builder s (t, Go n) = None) /\
  (forall a, step two_outside chain_builder s (0, a) = None) /\
  map finished (tasks s) = [false; true; false].
Proof.
  exists (repeat (0, Go 0) 2 ++ repeat (2, Go 0) 2 ++ repeat (0, Go 0) 1). do 2 eexists.
  split; [vm_compute; reflexivity|]. split; [repeat constructor|]. split; [|split].
  - intros t n. do 3 (destruct t as [|t]; [reflexivity|]). destruct t; reflexivity.
  - intros [n| |[|i]|]; reflexivity.
  - reflexivity.
Qed.
Print Assumptions C64_self_comparison_refuted.

(** A case: a task keeps the guard of a lazy read and reads the same field again. *)
Example C64_case :
  match run all_inside chain_builder (start (fun _ => None) [read_keep 0 (fun _ => read_once 0)]) (repeat (0, Go 0) 11) with
  | Some (s, ev) =>
      match nth_error (tasks s) 0 with
      | Some th => held th = [(0, HR)] /\
                   match code_of th with
                   | User (PCall f c _) => (f, takes_lock c, shares_lock c, blocking c) = (0, true, false, false)
                   | _ => False
                   end
      | None => False
      end /\
      match run all_inside chain_builder s (repeat (0, Go 0) 2) with
      | Some (s1, _) => step all_inside chain_builder s1 (0, Go 0) = None
      | None => False
      end
  | None => False
  end.
Proof. vm_compute. repeat split. Qed.

Example C64_case_sharers :
  Forall only_shares [compare 0 0; lock_keep 0 (fun _ => lock_keep 0 (fun _ => compare 0 1)); clone_once 0].
Proof.
  repeat (apply Forall_cons; [simpl; split; auto; intros [v| | | | | | |]; simpl; auto;
    split; auto; intros [w| | | | | | |]; simpl; auto|]). constructor.
Qed.
