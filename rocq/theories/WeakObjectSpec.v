(** What users of a shared object on weak memory see, compared with users of a record of
    cells.  Nothing here mentions emitted code, containers, locks, memory or generators.

    Property C91: on memory that is not sequentially consistent a shared object is still
    answered for by a record of cells, but for what predicates of lazy fields say. *)
From Coq Require Import List Bool Arith.
From Verif Require Import ProxyTypes ArgsModel FieldSpec ThreadSpec ObjectSpec.
Import ListNotations.

(** The same thing seen, but for the answer of a predicate of a lazy field. *)
Inductive seen_as (roles : list role) : nat * hist -> nat * hist -> Prop :=
| seen_same e : seen_as roles e e
| seen_predicate i r fl a b b' : nth_error roles i = Some r -> v_shape (r_view r) = Lazy fl ->
    seen_as roles (i, HRet a (ORet (AnBool b))) (i, HRet a (ORet (AnBool b'))).
