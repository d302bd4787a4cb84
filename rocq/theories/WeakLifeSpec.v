(** The life of an object on memory that is not sequentially consistent.  Nothing here
    mentions emitted code, containers, locks, memory or generators.

    Property C94: on such memory too an object is one record of cells through all of its
    life, but for what predicates of lazy fields say while it is shared.  In particular its
    owner finds in it what its users left, and nothing older. *)
From Coq Require Import List Bool Arith.
From Verif Require Import ProxyTypes ArgsModel FieldSpec ThreadSpec ObjectSpec LifeSpec WeakObjectSpec.
Import ListNotations.

Section Life.
  Variable parts : list (view * bool).
  (** The same scene, but for such answers while the object is shared. *)
  Inductive scene_as : scene -> scene -> Prop :=
  | sc_same s : scene_as s s
  | sc_together bld h h' : Forall2 (seen_as (roles_now parts (map (fun _ => None) parts))) h h' ->
      scene_as (Together bld h) (Together bld h').
  (** No predicate of a lazy field has answered while it was shared. *)
  Definition unasked (s : scene) : Prop :=
    match s with
    | Alone _ _ _ _ => True
    | Together _ h => forall i a b r fl, In (i, HRet a (ORet (AnBool b))) h -> nth_error parts i = Some r -> v_shape (fst r) <> Lazy fl
    end.
End Life.
