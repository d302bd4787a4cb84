(** Specification for properties C26, C27 and C51: what a program can do with the
    objects of a struct declared with `rc`, and how references are counted by looking
    at who holds them.  No counters here. *)
From Coq Require Import List Bool Arith.
Import ListNotations.

(** The contents of a struct: the reference to itself ([None]: the empty reference of
    Weak::new), some data, and a lazy field. *)
Record obj : Type := Obj { me : option nat; base : nat; cache : option nat }.

(** What a program has in its variables: an owning reference, a weak reference, a
    value that is in no Rc/Arc, nothing any more. *)
Inductive hand : Type :=
| Own (a : nat)
| Wk (w : option nat)
| Val (o : obj)
| Empty.

(** Where `self` can be when a method is called: behind a variable; the object
    being built, in post_build; the object being dropped, in Drop::drop. *)
Inductive place : Type :=
| InHand (i : nat)
| InBuild (a : nat)
| InDrop (a : nat).

(** Plain lazy field, or sync or async one. *)
Inductive lazy_kind : Type := KPlain | KSync.

Inductive action : Type :=
(* emitted by fieldx *)
| NewStart (b : nat) (c : option nat) (* new() or build(), up to post_build; [c]: the lazy field was
                                   given to the builder *)
| NewEnd (a : nat)              (* post_build has returned *)
| NewAbort (a : nat)            (* post_build has panicked *)
| Myself (p : place)            (* myself() *)
| MyselfDowngrade (p : place)   (* myself_downgrade() *)
| Read (k : lazy_kind) (p : place) (* accessor of the lazy field *)
| MakeDefault (b : nat)         (* Default::default(), or deserialisation *)
(* of std or derived *)
| CloneVal (p : place)          (* derive(Clone) on the struct *)
| CloneOwn (i : nat)            (* Rc::clone *)
| DropHand (i : nat)            (* a variable goes out of scope *)
| DropEnd (a : nat)             (* Drop::drop has returned, the fields are dropped *)
| Downgrade (i : nat)           (* Rc::downgrade *)
| Upgrade (i : nat)             (* Weak::upgrade *)
| CloneWk (i : nat)             (* Weak::clone *)
| Wrap (i : nat)                (* Rc::new on a value *)
| TryUnwrap (i : nat)           (* Rc::try_unwrap *)
| GetMut (i : nat) (b : nat)    (* Rc::get_mut, then a setter if it succeeded *)
| MakeMut (i : nat) (b : nat).  (* Rc::make_mut, then a setter *)

Inductive result : Type :=
| RHand (h : hand)   (* a new variable *)
| RNone              (* Option::None *)
| RUnit
| RNum (n : nat)
| RBool (b : bool)
| RPanic.

(** What happens to objects. *)
Inductive revent : Type :=
| Built (a : nat)      (* new() or build() has returned object [a] *)
| Wrapped (a : nat)    (* the user has put a value into a new Rc *)
| Aborted (a : nat)    (* construction has failed *)
| Dropped (a : nat)    (* Drop::drop of [a] is called *)
| MovedOut (a : nat).  (* the contents of [a] have been moved elsewhere *)

Definition is_event (x y : revent) : bool :=
  match x, y with
  | Built a, Built b | Wrapped a, Wrapped b | Aborted a, Aborted b
  | Dropped a, Dropped b | MovedOut a, MovedOut b => a =? b
  | _, _ => false
  end.

Fixpoint total {A} (f : A -> nat) (l : list A) : nat :=
  match l with [] => 0 | x :: r => f x + total f r end.

(** How often an event happened. *)
Definition times (x : revent) (l : list revent) : nat :=
  total (fun y => if is_event x y then 1 else 0) l.

Definition is_some_a (a : nat) (w : option nat) : nat :=
  match w with Some b => if a =? b then 1 else 0 | None => 0 end.

(** How many variables own [a]; how many refer to [a] weakly, by themselves or
    inside a value. *)
Definition owns (a : nat) (h : hand) : nat :=
  match h with Own b => if a =? b then 1 else 0 | _ => 0 end.
Definition refers (a : nat) (h : hand) : nat :=
  match h with
  | Wk w => is_some_a a w
  | Val o => is_some_a a (me o)
  | _ => 0
  end.
Definition owners (a : nat) (l : list hand) : nat := total (owns a) l.
Definition referrers (a : nat) (l : list hand) : nat := total (refers a) l.
