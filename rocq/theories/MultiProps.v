(** Properties C09, C10, C11: many sync fields, many threads, builders that call
    back into fields.  All statements are about every schedule of the model
    MultiModel.v. *)
From Coq Require Import List Bool Arith Lia.
From Verif Require Import ProxyTypes MultiSpec MultiModel MultiOwn MultiOrder MultiTerm MultiTrap.
Import ListNotations.

(** Small pieces of code for the examples: what a user writes. *)
Definition done : prog := PEnd (BOk 0).
(* reads [f], drops the guard, ends with the value plus one *)
Definition read_drop (f : fid) (k : nat -> prog) : prog :=
  PCall f (Proxy ORead) (fun r => match r with
    | RGuard v => PCall f (Proxy GDrop) (fun _ => k v)
    | _ => PEnd BPanic
    end).
(* reads [f] and keeps the guard *)
Definition read_keep (f : fid) (k : nat -> prog) : prog :=
  PCall f (Proxy ORead) (fun r => match r with RGuard v => k v | _ => PEnd BPanic end).
Definition read_once (f : fid) : prog := read_drop f (fun _ => done).
Definition clear_once (f : fid) : prog := PCall f (Proxy OClear) (fun _ => done).
Definition write_once (f : fid) (v : nat) : prog :=
  PCall f (Proxy OWrite) (fun r => match r with
    | RUnit => PCall f (Proxy (GStore v)) (fun _ => done)
    | _ => PEnd BPanic
    end).
Definition compare (a b : fid) : prog := PCall a (EqWith b) (fun _ => done).

(** Builders of the examples: field 0 is 10; field [S f] is one more than field
    [f]. *)
Definition chain_builder (f : fid) (_ : nat) : prog :=
  match f with
  | 0 => PEnd (BOk 10)
  | S g => read_drop g (fun v => PEnd (BOk (S v)))
  end.

Lemma chain_orderly : builders_orderly (fun f => f) chain_builder.
Proof.
  intros [|f] n; simpl; [exact I|]. split; [|split].
  - intros _. split; [intros m E; inversion E; lia|intros g h []].
  - discriminate.
  - intros [v| | | | | | |]; simpl; try exact I.
    exists HR, []. rewrite Nat.eqb_refl. auto.
Qed.

(** C09.  When builders keep below the field they build and all code takes locks in
    descending order only, in every reachable state some thread can move or all
    threads are finished.  The number of threads, fields and builders is not
    bounded; builders may do different things each time. *)
Theorem C09_never_stuck : forall rank builder v0 ps l s ev,
  builders_orderly rank builder -> Forall (orderly rank None []) ps ->
  run builder (start v0 ps) l = Some (s, ev) ->
  (exists t r, step builder s (t, 0) = Some r) \/
  Forall (fun th => finished th = true) (threads s).
Proof.
  intros rank builder v0 ps l s ev B P R. apply (never_stuck rank).
  - eapply reach_owned; eauto.
  - eapply reach_ok; eauto.
Qed.
Print Assumptions C09_never_stuck.

(** Under the same conditions no schedule goes on for ever: of every infinite
    schedule only a finite beginning can be run. *)
Theorem C09_terminates : forall rank builder v0 ps,
  builders_orderly rank builder -> Forall (orderly rank None []) ps ->
  forall a : nat -> tid * nat, exists n,
    run builder (start v0 ps) (map a (seq 0 n)) = None.
Proof.
  intros rank builder v0 ps B P. apply (no_endless_run rank builder B).
  - now apply start_ok.
  - now apply start_acc.
Qed.
Print Assumptions C09_terminates.

(** From every reachable state all threads can be brought to their end. *)
Theorem C09_completes : forall rank builder v0 ps l s ev,
  builders_orderly rank builder -> Forall (orderly rank None []) ps ->
  run builder (start v0 ps) l = Some (s, ev) ->
  exists l' s' ev', run builder s l' = Some (s', ev') /\
    Forall (fun th => finished th = true) (threads s').
Proof.
  intros rank builder v0 ps l s ev B P R.
  pose proof (start_ok rank v0 ps P) as OK. apply (completes rank builder B).
  - eapply reach_owned; eauto.
  - eapply reach_ok; eauto.
  - eapply reach_acc; eauto using start_acc.
Qed.
Print Assumptions C09_completes.

(** A case: two readers of field 2 (built from 1, built from 0), one that clears
    field 1 and one that compares field 2 with field 0. *)
Example C09_case_hypotheses :
  builders_orderly (fun f => f) chain_builder /\
  Forall (orderly (fun f => f) None []) [read_once 2; read_once 2; clear_once 1; compare 2 0].
Proof.
  split; [apply chain_orderly|].
  assert (R : orderly (fun f => f) None [] (read_once 2)).
  { simpl. split; [|split; [discriminate|]].
    - intros _. split; [discriminate|intros g h []].
    - intros [v| | | | | | |]; simpl; try exact I. exists HR, []. auto. }
  assert (L : forall f, lower (fun x => x) None [] f) by (intros f; split; [discriminate|intros g h []]).
  constructor; [exact R|]. constructor; [exact R|].
  constructor; [simpl; split; [auto|split; [discriminate|auto]]|].
  constructor; [|constructor]. simpl. split; [auto|]. split; [|auto].
  intros g E. inversion E. lia.
Qed.

(* thread 0 builds field 2 alone: the values below come out, each builder ran once *)
Example C09_case_run :
  match run chain_builder (start (fun _ => None) [read_once 2]) (repeat (0, 0) 51) with
  | Some (s, ev) => map finished (threads s) = [true] /\
                    (value (fields s 0), value (fields s 1), value (fields s 2)) = (Some 10, Some 11, Some 12) /\
                    ev = [BStart 0 2; BStart 0 1; BStart 0 0; BEnd 0 0 (BOk 10); BEnd 0 1 (BOk 11); BEnd 0 2 (BOk 12)]
  | None => False
  end.
Proof. vm_compute. auto. Qed.

(** The wording of C09 is not enough by itself: builders that only touch lower
    fields, and user threads that hold no guard while calling, can still deadlock
    when two builders keep read guards in opposite orders while writers wait.
    Fields 1 and 2 have values; the builder of 3 reads 1 and then 2, the builder of 4
    reads 2 and then 1, both keeping the first guard; threads 2 and 3 clear 1
    and 2. *)
Definition keeping_builder (f : fid) (_ : nat) : prog :=
  match f with
  | 3 => read_keep 1 (fun _ => read_keep 2 (fun _ => done))
  | 4 => read_keep 2 (fun _ => read_keep 1 (fun _ => done))
  | _ => done
  end.

(** Every field that the code mentions is below [n]. *)
Fixpoint touches_below (n : nat) (p : prog) : Prop :=
  match p with
  | PEnd _ => True
  | PCall f c k => f < n /\ (forall g, c = EqWith g -> g < n) /\ forall r, touches_below n (k r)
  end.

Theorem C09_builder_guards_refuted :
  (forall f n, touches_below f (keeping_builder f n)) /\
  let ps := [read_once 3; read_once 4; clear_once 1; clear_once 2] in
  Forall (orderly (fun _ => 0) None []) ps /\
  exists l s ev,
    run keeping_builder (start (fun f => if f <? 3 then Some 7 else None) ps) l = Some (s, ev) /\
    (forall t n, step keeping_builder s (t, n) = None) /\
    Forall (fun th => finished th = false) (threads s).
Proof.
  split; [|split].
  - assert (K : forall m f k, f < m -> (forall v, touches_below m (k v)) -> touches_below m (read_keep f k)).
    { intros m f k L H. split; [exact L|]. split; [discriminate|]. intros [v| | | | | | |]; simpl; auto. }
    intros f n. do 5 (destruct f as [|f]; [simpl; repeat (first [exact I | apply K; [lia|intros ?]])|]).
    exact I.
  - assert (L : forall f, lower (fun _ => 0) None [] f) by (intros f; split; [discriminate|intros g h []]).
    assert (R : forall f, orderly (fun _ => 0) None [] (read_once f)).
    { intros f. simpl. split; [auto|split; [discriminate|]].
      intros [v| | | | | | |]; simpl; try exact I. exists HR, []. rewrite Nat.eqb_refl. auto. }
    repeat (apply Forall_cons; [first [apply R | simpl; split; [auto|split; [discriminate|auto]]]|]).
    constructor.
  - exists (repeat (0, 0) 14 ++ repeat (1, 0) 14 ++ repeat (2, 0) 2 ++ repeat (3, 0) 2).
    eexists. eexists. split; [vm_compute; reflexivity|]. split.
    + intros t n. do 4 (destruct t as [|t]; [reflexivity|]). destruct t; reflexivity.
    + repeat constructor.
Qed.
Print Assumptions C09_builder_guards_refuted.

(** C10.  A thread that calls into a field while the builder of that very field is
    running further down its own stack never gets past that call: in every
    continuation it is still there. *)
Theorem C10_reentrant_call_never_returns : forall builder v0 ps l s ev t th g c k,
  run builder (start v0 ps) l = Some (s, ev) ->
  nth_error (threads s) t = Some th ->
  code_of th = User (PCall g c k) -> takes_lock c = true ->
  (exists fr, In fr (stack th) /\ fr_field fr = g) ->
  forall l' s' ev', run builder s l' = Some (s', ev') ->
  exists th', nth_error (threads s') t = Some th' /\
    stack th' = stack th /\ held th' = held th /\
    (code_of th' = User (PCall g c k) \/
     exists p, enter c = Some p /\ code_of th' = Call g p k).
Proof. exact reentrant_call. Qed.
Print Assumptions C10_reentrant_call_never_returns.

(** A builder that cannot end without asking for the lock of its own field never
    ends, whatever else happens: its end is never seen. *)
Theorem C10_self_dependent_never_ends : forall builder f v0 ps l s ev,
  (forall n, must_touch f (builder f n)) ->
  run builder (start v0 ps) l = Some (s, ev) ->
  forall t o, ~ In (BEnd t f o) ev.
Proof.
  intros builder f v0 ps l s ev MT R t o I.
  destruct (self_run builder f MT l _ _ _ R (start_owned v0 ps) (self_start f v0 ps)) as [_ NB].
  rewrite Forall_forall in NB. exact (NB _ I eq_refl).
Qed.
Print Assumptions C10_self_dependent_never_ends.

(** The call that started such a builder is never resumed: it stays on the stack of
    its thread, with what it was called for, in every continuation. *)
Theorem C10_self_dependent_read_never_returns : forall builder f v0 ps l s ev t th top fr rest,
  (forall n, must_touch f (builder f n)) ->
  run builder (start v0 ps) l = Some (s, ev) ->
  nth_error (threads s) t = Some th -> stack th = top ++ fr :: rest -> fr_field fr = f ->
  forall l' s' ev', run builder s l' = Some (s', ev') ->
  exists th' top', nth_error (threads s') t = Some th' /\ stack th' = top' ++ fr :: rest.
Proof.
  intros builder f v0 ps l s ev t th top fr rest MT R N ST E l' s' ev' R'.
  destruct (self_run builder f MT l _ _ _ R (start_owned v0 ps) (self_start f v0 ps)) as [[O SO] _].
  eapply self_stays; eauto.
Qed.
Print Assumptions C10_self_dependent_read_never_returns.

(** A circle of any length: when every builder of a set of unset fields needs the
    value of some field of the set, and nobody stores into them, none of them ever
    gets a value and none of the builders ever ends. *)
Theorem C10_circle_never_ends : forall builder (C : fid -> Prop) v0 ps l s ev,
  (forall f n, C f -> must_read C (builder f n)) ->
  (forall f n, never_stores C (builder f n)) ->
  Forall (never_stores C) ps -> (forall f, C f -> v0 f = None) ->
  run builder (start v0 ps) l = Some (s, ev) ->
  (forall f, C f -> value (fields s f) = None) /\
  (forall t f o, C f -> ~ In (BEnd t f o) ev).
Proof.
  intros builder C v0 ps l s ev MR NS P V R. destruct (cyc_start C v0 ps V P) as [U K].
  destruct (cyc_run builder C MR NS l _ _ _ R U K) as [[U' _] NB].
  split; [exact U'|]. intros t f o Cf I. rewrite Forall_forall in NB. exact (NB _ I Cf).
Qed.
Print Assumptions C10_circle_never_ends.

(** Cases: a builder that reads its own field; two builders that read each other. *)
Definition own_builder (f : fid) (_ : nat) : prog := read_drop f (fun v => PEnd (BOk (S v))).
Definition mutual_builder (f : fid) (_ : nat) : prog :=
  match f with
  | 0 => read_drop 1 (fun v => PEnd (BOk v))
  | 1 => read_drop 0 (fun v => PEnd (BOk v))
  | _ => done
  end.

Example C10_case_self : forall n, must_touch 0 (own_builder 0 n).
Proof. intros n. simpl. left. auto. Qed.

(* the thread is inside the builder of field 0, at a call on field 0 *)
Example C10_case_self_run :
  match run own_builder (start (fun _ => None) [read_once 0]) (repeat (0, 0) 7) with
  | Some (s, ev) =>
      ev = [BStart 0 0] /\
      match nth_error (threads s) 0 with
      | Some th => map fr_field (stack th) = [0] /\
                   match code_of th with User (PCall f c _) => (f, takes_lock c) = (0, true) | _ => False end
      | None => False
      end
  | None => False
  end.
Proof. vm_compute. auto. Qed.

Example C10_case_circle :
  let C := fun f => f < 2 in
  (forall f n, C f -> must_read C (mutual_builder f n)) /\
  (forall f n, never_stores C (mutual_builder f n)) /\
  Forall (never_stores C) [read_once 0; read_once 1; clear_once 0].
Proof.
  simpl. split; [|split].
  - intros [|[|f]] n H; simpl; [left|left|]; auto with arith. lia.
  - intros [|[|f]] n; simpl; auto; (split; [auto|intros [v| | | | | | |]; simpl; auto]).
  - assert (R : forall f, never_stores (fun x => x < 2) (read_once f))
      by (intros f; simpl; split; [auto|intros [v| | | | | | |]; simpl; auto]).
    repeat (apply Forall_cons; [first [apply R|simpl; auto]|]). constructor.
Qed.

(* one thread alone goes round once and then waits for itself *)
Example C10_case_circle_run :
  match run mutual_builder (start (fun _ => None) [read_once 0]) (repeat (0, 0) 15) with
  | Some (s, ev) => ev = [BStart 0 0; BStart 0 1] /\ step mutual_builder s (0, 0) = None /\
                    map finished (threads s) = [false]
  | None => False
  end.
Proof. vm_compute. auto. Qed.

(** C11.  Comparing a field with itself while a writer waits: thread 0 has the first
    read lock, the writer has taken the writer bit and waits for the readers, the
    second read lock waits for the writer.  Nothing can move. *)
Theorem C11_self_comparison_refuted :
  exists l s ev,
    run chain_builder (start (fun _ => Some 7) [compare 0 0; write_once 0 8]) l = Some (s, ev) /\
    (forall t n, step chain_builder s (t, n) = None) /\
    Forall (fun th => finished th = false) (threads s).
Proof.
  exists (repeat (0, 0) 2 ++ repeat (1, 0) 2). eexists. eexists. split; [vm_compute; reflexivity|]. split.
  - intros t n. do 2 (destruct t as [|t]; [reflexivity|]). destruct t; reflexivity.
  - repeat constructor.
Qed.
Print Assumptions C11_self_comparison_refuted.

(** The same with two different fields, compared in both orders, and two writers. *)
Theorem C11_crossed_comparison_refuted :
  exists l s ev,
    run chain_builder (start (fun _ => Some 7) [compare 0 1; compare 1 0; write_once 0 8; clear_once 1]) l
      = Some (s, ev) /\
    (forall t n, step chain_builder s (t, n) = None) /\
    Forall (fun th => finished th = false) (threads s).
Proof.
  exists (repeat (0, 0) 2 ++ repeat (1, 0) 2 ++ repeat (2, 0) 2 ++ repeat (3, 0) 2).
  eexists. eexists. split; [vm_compute; reflexivity|]. split.
  - intros t n. do 4 (destruct t as [|t]; [reflexivity|]). destruct t; reflexivity.
  - repeat constructor.
Qed.
Print Assumptions C11_crossed_comparison_refuted.

(** What does hold: threads that only compare, clone, print and lock for reading
    never wait, whatever they compare. *)
Theorem C11_readers_never_wait : forall builder v0 ps l s ev,
  Forall only_shares ps ->
  run builder (start v0 ps) l = Some (s, ev) ->
  forall t th f p k n, nth_error (threads s) t = Some th -> code_of th = Call f p k ->
  exists r, step builder s (t, n) = Some r.
Proof.
  intros builder v0 ps l s ev P R t th f p k n N C.
  destruct (share_start v0 ps P) as [U S]. destruct (share_run builder l _ _ _ R U S) as [U' S'].
  rewrite Forall_forall in S'.
  destruct (share_moves builder (fields s) t n th f p k U' (S' _ (nth_error_In _ _ N)) C) as [[[F1 th1] e1] T].
  unfold step. simpl. rewrite N, T. eexists; reflexivity.
Qed.
Print Assumptions C11_readers_never_wait.

(** And: comparisons of two different fields, all in the same order, together with
    any number of threads that hold one lock at a time, never get stuck and all
    end. *)
Theorem C11_same_order_comparisons_end : forall builder a b v0 ps,
  a <> b -> (forall f n, exists o, builder f n = PEnd o) ->
  Forall (fun p => p = compare a b \/ orderly (fun _ => 0) None [] p) ps ->
  (forall l s ev, run builder (start v0 ps) l = Some (s, ev) ->
     (exists t r, step builder s (t, 0) = Some r) \/
     Forall (fun th => finished th = true) (threads s)) /\
  (forall x : nat -> tid * nat, exists n, run builder (start v0 ps) (map x (seq 0 n)) = None).
Proof.
  intros builder a b v0 ps D B P.
  set (rank := fun x => if Nat.eqb x a then 1 else 0).
  assert (BO : builders_orderly rank builder).
  { intros f n. destruct (B f n) as [o ->]. exact I. }
  assert (PO : Forall (orderly rank None []) ps).
  { eapply Forall_impl; [|exact P]. intros p [->|H]; [|eapply one_lock_orderly; exact H].
    simpl. split; [intros _; split; [discriminate|intros g h []]|]. split; [|auto].
    intros g E. inversion E; subst. unfold rank. rewrite Nat.eqb_refl.
    destruct (Nat.eqb_spec g a); [congruence|lia]. }
  split.
  - intros l s ev R. eapply (C09_never_stuck rank); eauto.
  - apply (C09_terminates rank); auto.
Qed.
Print Assumptions C11_same_order_comparisons_end.

Example C11_case :
  Forall (fun p => p = compare 1 0 \/ orderly (fun _ => 0) None [] p)
    [compare 1 0; write_once 1 8; clear_once 0; compare 1 0] /\
  Forall only_shares [compare 0 0; compare 1 0; PCall 0 LockRead (fun _ => compare 0 1)].
Proof.
  assert (L : forall f, lower (fun _ => 0) None [] f) by (intros f; split; [discriminate|intros g h []]).
  split.
  - apply Forall_cons; [auto|]. apply Forall_cons.
    { right. simpl. split; [auto|split; [discriminate|]].
      intros [v| | | | | | |]; simpl; try exact I. exists HW, []. auto. }
    apply Forall_cons; [right; simpl; split; [auto|split; [discriminate|auto]]|].
    apply Forall_cons; auto.
  - repeat (apply Forall_cons; [simpl; auto|]). constructor.
Qed.
