(** Comparing histories, and the spread of knowledge. *)
From Coq Require Import List Bool Arith.
From Verif Require Import ProxyTypes.
Import ListNotations.

Section Spec.
  Context {V E : Type}.
  (** The same event, but for the answer of the predicate. *)
  Inductive alike : event V E -> event V E -> Prop :=
  | alike_same e : alike e e
  | alike_predicate a b b' : alike (EvRet a (RBool b)) (EvRet a (RBool b')).
  (** The answers that [a] got from the predicate, in order. *)
  Definition answers (a : aid) (t : list (event V E)) : list bool :=
    flat_map (fun e => match e with EvRet b (RBool x) => if Nat.eqb a b then [x] else [] | _ => [] end) t.
End Spec.
(** [xs] is what one sees who looks at [h] from time to time, and never goes back. *)
Inductive onward : list bool -> list bool -> Prop :=
| on_done h : onward [] h
| on_look x xs h : onward xs (x :: h) -> onward (x :: xs) (x :: h)
| on_wait x xs h : onward xs h -> onward xs (x :: h).
(** Who has heard from one of [l], directly or not: each pair is who tells whom. *)
Fixpoint heard (l : list aid) (tells : list (aid * aid)) : list aid :=
  match tells with
  | [] => l
  | (a, b) :: r => if existsb (Nat.eqb a) l then heard (b :: l) r else heard l r
  end.
