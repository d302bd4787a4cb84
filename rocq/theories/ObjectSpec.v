(** All the fields of an object at once: what users of a record of cells see.  Nothing here
    mentions emitted code, containers, locks or generators.

    Property C89: calls of the emitted methods of all the fields of a shared object, made
    concurrently, are answered as if each took place at one instant between its call and
    its return, by a record with one cell of FieldSpec.v for each field. *)
From Coq Require Import List Bool Arith.
From Verif Require Import ProxyTypes ArgsModel FieldSpec ThreadSpec.
Import ListNotations.

(** One cell of the record: what it promises, whether its calls can be abandoned, and its
    content at the beginning. *)
Record role := mk_role { r_view : view; r_cancellable : bool; r_start : option nat }.
(** What happens in one field. *)
Definition at_field {A} (i : nat) (t : list (nat * A)) : list A :=
  map snd (filter (fun e => Nat.eqb (fst e) i) t).
Fixpoint put {A} (l : list A) (i : nat) (x : A) : list A :=
  match l, i with
  | [], _ => []
  | _ :: t, 0 => x :: t
  | y :: t, S j => y :: put t j x
  end.

Section Record.
  Variable bld : nat -> nat -> outcome nat nat.   (* for each field *)
  Variable dflt : nat.
  Variable roles : list role.
  Notation world := (cellst * (aid -> wstat))%type.
  (** One thing happens in one field, the others stay as they are. *)
  Inductive rstep : list world -> list (nat * hist) -> list world -> Prop :=
  | r_step ws i r w t w' : nth_error roles i = Some r -> nth_error ws i = Some w ->
      wstep (bld i) dflt (r_view r) (r_cancellable r) w t w' -> rstep ws (map (pair i) t) (put ws i w').
  Inductive rruns : list world -> list (nat * hist) -> list world -> Prop :=
  | rr_nil ws : rruns ws [] ws
  | rr_step ws t1 ws1 t2 ws2 : rstep ws t1 ws1 -> rruns ws1 t2 ws2 -> rruns ws (t1 ++ t2) ws2.
  Definition rstart : list world := map (fun r => wstart (r_start r)) roles.
End Record.
