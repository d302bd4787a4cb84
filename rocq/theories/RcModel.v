(** Model of structs declared with `rc`.

    Emitted code: /repo/fieldx_derive/src/codegen.rs:140-170 (the field with the weak
    self-reference), 226-250 (new), 253-280 (myself, myself_downgrade), 282-306
    (Default), 342-345 and 393-400 (build);
    /repo/fieldx_derive/src/codegen/codegen_trait.rs:232-274 (maybe_ref_counted_create),
    530-545 (maybe_ref_counted_self); codegen/plain.rs:67-79, 97-108 and
    codegen/sync.rs:75-90, 246-262, 321-336 (where lazy accessors call it).

    Rc, Arc and Weak are not in /repo; their behaviour is taken from the
    documentation of std.  Each operation on the counts is atomic, so that a sequence
    of actions is also a schedule of threads.

    Simplifications:
    - one data field, one lazy field; the builder is a function of the data of the
      object it is given;
    - reading a lazy field is one action: the temporary owning reference lives only
      inside it;
    - post_build returns the object it was given;
    - the weak count leaves out the one that all owning references hold together,
      as Rc::weak_count does;
    - an owning reference stored inside some object is a variable like the others. *)
From Coq Require Import List Bool Arith.
From Verif Require Import RcSpec.
Import ListNotations.

(** Where an allocation is in its life: std, Rc::new_cyclic and Drop for Rc. *)
Inductive phase : Type := Building | Alive | Dropping | Gone.

Record alloc : Type := Alloc { strong : nat; weak : nat; stage : phase; body : obj }.

Record world : Type := World { heap : list alloc; hands : list hand }.

(** Bookkeeping, stands for no code. *)
Fixpoint alter {A} (i : nat) (f : A -> A) (l : list A) : list A :=
  match l, i with
  | [], _ => []
  | x :: r, 0 => f x :: r
  | x :: r, S j => x :: alter j f r
  end.

Definition with_strong (n : nat) (al : alloc) : alloc := Alloc n (weak al) (stage al) (body al).
Definition with_weak (n : nat) (al : alloc) : alloc := Alloc (strong al) n (stage al) (body al).
Definition with_stage (p : phase) (al : alloc) : alloc := Alloc (strong al) (weak al) p (body al).
Definition with_body (o : obj) (al : alloc) : alloc := Alloc (strong al) (weak al) (stage al) o.

(** std: Rc::clone and the successful Weak::upgrade. *)
Definition inc_strong (al : alloc) : alloc := with_strong (S (strong al)) al.
(** std: Weak::clone and Rc::downgrade; an empty reference has no count. *)
Definition grab (w : option nat) (h : list alloc) : list alloc :=
  match w with Some a => alter a (fun al => with_weak (S (weak al)) al) h | None => h end.
(** std: Drop for Weak. *)
Definition leave (w : option nat) (h : list alloc) : list alloc :=
  match w with Some a => alter a (fun al => with_weak (pred (weak al)) al) h | None => h end.

(** std: Weak::upgrade: fails when there is no owning reference. *)
Definition upgrade (h : list alloc) (w : option nat) : option nat :=
  match w with
  | Some a => match nth_error h a with
              | Some al => if strong al =? 0 then None else Some a
              | None => None
              end
  | None => None
  end.

(** The struct that `self` is. *)
Definition self_at (s : world) (p : place) : option obj :=
  match p with
  | InHand i =>
      match nth_error (hands s) i with
      | Some (Own a) => option_map body (nth_error (heap s) a)
      | Some (Val o) => Some o
      | _ => None
      end
  | InBuild a =>
      match nth_error (heap s) a with
      | Some al => match stage al with Building => Some (body al) | _ => None end
      | None => None
      end
  | InDrop a =>
      match nth_error (heap s) a with
      | Some al => match stage al with Dropping => Some (body al) | _ => None end
      | None => None
      end
  end.

(** Writes into it (through its cell). *)
Definition put_at (s : world) (p : place) (o : obj) : world :=
  match p with
  | InHand i =>
      match nth_error (hands s) i with
      | Some (Own a) => World (alter a (with_body o) (heap s)) (hands s)
      | Some (Val _) => World (heap s) (alter i (fun _ => Val o) (hands s))
      | _ => s
      end
  | InBuild a | InDrop a => World (alter a (with_body o) (heap s)) (hands s)
  end.

(** A new variable. *)
Definition give (s : world) (h : list alloc) (x : hand) : option (world * result * list revent) :=
  Some (World h (hands s ++ [x]), RHand x, []).

Definition with_base (b : nat) (o : obj) : obj := Obj (me o) b (cache o).

Section Step.
  (** The lazy builder. *)
  Variable build : nat -> nat.

  (** Initialises the lazy field of [o] at [p], the builder being called on [a]:
      plain.rs:78, sync/fxproxy.rs:150. *)
  Definition init_lazy (s : world) (p : place) (o : obj) (a : nat) : option (world * result * list revent) :=
    match nth_error (heap s) a with
    | Some al =>
        let v := build (base (body al)) in
        Some (put_at s p (Obj (me o) (base o) (Some v)), RNum v, [])
    | None => None
    end.

  (** One action; [None]: not possible here. *)
  Definition step (s : world) (x : action) : option (world * result * list revent) :=
    match x with
    | NewStart b c =>
        (* codegen_trait.rs:256-263: new_cyclic calls the closure, which stores
           me.clone(); codegen.rs:242: the rest from Self::default(), 393-400: from
           the builder *)
        let a := length (heap s) in
        Some (World (heap s ++ [Alloc 0 1 Building (Obj (Some a) b c)]) (hands s), RUnit, [])
    | NewEnd a =>
        match nth_error (heap s) a with
        | Some al =>
            match stage al with
            | Building =>
                Some (World (alter a (fun al => with_stage Alive (with_strong 1 al)) (heap s))
                        (hands s ++ [Own a]), RHand (Own a), [Built a])
            | _ => None
            end
        | None => None
        end
    | NewAbort a =>
        match nth_error (heap s) a with
        | Some al =>
            match stage al with
            | Building => Some (World (leave (me (body al)) (alter a (with_stage Gone) (heap s))) (hands s),
                                RPanic, [Aborted a])
            | _ => None
            end
        | None => None
        end
    | Myself p =>
        (* codegen.rs:268-270 *)
        match self_at s p with
        | Some o =>
            match upgrade (heap s) (me o) with
            | Some a => give s (alter a inc_strong (heap s)) (Own a)
            | None => Some (s, RNone, [])
            end
        | None => None
        end
    | MyselfDowngrade p =>
        (* codegen.rs:275-277 *)
        match self_at s p with
        | Some o => give s (grab (me o) (heap s)) (Wk (me o))
        | None => None
        end
    | Read KPlain p =>
        (* plain.rs:78: the closure asks for the owner, so only if there is no value *)
        match self_at s p with
        | Some o =>
            match cache o with
            | Some v => Some (s, RNum v, [])
            | None =>
                match upgrade (heap s) (me o) with
                | Some a => init_lazy s p o a
                | None => Some (s, RPanic, []) (* codegen_trait.rs:539: expect *)
                end
            end
        | None => None
        end
    | Read KSync p =>
        (* sync.rs:87, 257, 332: the owner is an argument of read *)
        match self_at s p with
        | Some o =>
            match upgrade (heap s) (me o) with
            | Some a =>
                match cache o with
                | Some v => Some (s, RNum v, [])
                | None => init_lazy s p o a
                end
            | None => Some (s, RPanic, [])
            end
        | None => None
        end
    | MakeDefault b =>
        (* the weak field has no default of its own, so it is Weak::default():
           codegen.rs:292-297; the same after deserialisation, codegen/serde.rs:371-383 *)
        give s (heap s) (Val (Obj None b None))
    | CloneVal p =>
        match self_at s p with
        | Some o => give s (grab (me o) (heap s)) (Val o)
        | None => None
        end
    | CloneOwn i =>
        match nth_error (hands s) i with
        | Some (Own a) => give s (alter a inc_strong (heap s)) (Own a)
        | _ => None
        end
    | DropHand i =>
        match nth_error (hands s) i with
        | Some (Own a) =>
            match nth_error (heap s) a with
            | Some al =>
                match strong al with
                | 0 => None
                | 1 => Some (World (alter a (fun al => with_stage Dropping (with_strong 0 al)) (heap s))
                               (alter i (fun _ => Empty) (hands s)), RUnit, [Dropped a])
                | S n => Some (World (alter a (with_strong n) (heap s))
                                 (alter i (fun _ => Empty) (hands s)), RUnit, [])
                end
            | None => None
            end
        | Some (Wk w) => Some (World (leave w (heap s)) (alter i (fun _ => Empty) (hands s)), RUnit, [])
        | Some (Val o) => Some (World (leave (me o) (heap s)) (alter i (fun _ => Empty) (hands s)), RUnit, [])
        | _ => None
        end
    | DropEnd a =>
        match nth_error (heap s) a with
        | Some al =>
            match stage al with
            | Dropping => Some (World (leave (me (body al)) (alter a (with_stage Gone) (heap s))) (hands s),
                                RUnit, [])
            | _ => None
            end
        | None => None
        end
    | Downgrade i =>
        match nth_error (hands s) i with
        | Some (Own a) => give s (grab (Some a) (heap s)) (Wk (Some a))
        | _ => None
        end
    | Upgrade i =>
        match nth_error (hands s) i with
        | Some (Wk w) =>
            match upgrade (heap s) w with
            | Some a => give s (alter a inc_strong (heap s)) (Own a)
            | None => Some (s, RNone, [])
            end
        | _ => None
        end
    | CloneWk i =>
        match nth_error (hands s) i with
        | Some (Wk w) => give s (grab w (heap s)) (Wk w)
        | _ => None
        end
    | Wrap i =>
        match nth_error (hands s) i with
        | Some (Val o) =>
            let a := length (heap s) in
            Some (World (heap s ++ [Alloc 1 0 Alive o]) (alter i (fun _ => Own a) (hands s)),
                  RHand (Own a), [Wrapped a])
        | _ => None
        end
    | TryUnwrap i =>
        match nth_error (hands s) i with
        | Some (Own a) =>
            match nth_error (heap s) a with
            | Some al =>
                if strong al =? 1
                then Some (World (alter a (fun al => with_stage Gone (with_strong 0 al)) (heap s))
                             (alter i (fun _ => Val (body al)) (hands s)), RBool true, [MovedOut a])
                else Some (s, RBool false, [])
            | None => None
            end
        | _ => None
        end
    | GetMut i b =>
        match nth_error (hands s) i with
        | Some (Own a) =>
            match nth_error (heap s) a with
            | Some al =>
                if (strong al =? 1) && (weak al =? 0)
                then Some (World (alter a (with_body (with_base b (body al))) (heap s)) (hands s), RBool true, [])
                else Some (s, RBool false, [])
            | None => None
            end
        | _ => None
        end
    | MakeMut i b =>
        match nth_error (hands s) i with
        | Some (Own a) =>
            match nth_error (heap s) a with
            | Some al =>
                let c := length (heap s) in
                let o := with_base b (body al) in
                if strong al =? 1
                then if weak al =? 0
                     then Some (World (alter a (with_body o) (heap s)) (hands s), RUnit, [])
                     else (* moved into a new allocation; the weak references stay *)
                       Some (World (alter a (fun al => with_stage Gone (with_strong 0 al)) (heap s)
                                      ++ [Alloc 1 0 Alive o])
                               (alter i (fun _ => Own c) (hands s)), RUnit, [MovedOut a; Wrapped c])
                else (* cloned into a new allocation *)
                  Some (World (grab (me o) (alter a (fun al => with_strong (pred (strong al)) al) (heap s))
                                 ++ [Alloc 1 0 Alive o])
                          (alter i (fun _ => Own c) (hands s)), RUnit, [Wrapped c])
            | None => None
            end
        | _ => None
        end
    end.

  (** A sequence of actions, with everything that happened. *)
  Fixpoint run (s : world) (l : list action) : option (world * list result * list revent) :=
    match l with
    | [] => Some (s, [], [])
    | x :: r =>
        match step s x with
        | Some (s1, y, e1) =>
            match run s1 r with
            | Some (s2, ys, e2) => Some (s2, y :: ys, e1 ++ e2)
            | None => None
            end
        | None => None
        end
    end.
End Step.

(** Nothing yet. *)
Definition init : world := World [] [].
