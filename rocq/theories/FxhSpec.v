(** What the parameters of a helper argument mean.  Nothing here mentions macros, emitted code
    or hash maps.

    Property C95: a helper type has the options that all helpers have and those that are
    declared for it; options may be put into groups, [public] and [private] always are in
    one.  A value is fine if of no group more than one option is set and its own check, if it
    has one, accepts it. *)
From Coq Require Import List Bool String Arith.
Import ListNotations.
Open Scope string_scope.
Open Scope list_scope.

Inductive verdict := Fine | Clash (group : string) (names : list string) | Refused.

(** Every helper has them. *)
Definition common_options : list string := ["name"; "off"; "attributes_fn"; "public"; "private"].

Section Options.
  (** The options declared, in their order, each with its group if it has one. *)
  Variable declared : list (string * option string).
  Definition in_group (g : string) (o : string * option string) : bool :=
    match snd o with Some k => String.eqb k g | None => false end.
  Definition members (g : string) : list string :=
    (if String.eqb g "visibility" then ["public"; "private"] else []) ++ map fst (filter (in_group g) declared).
  Variable set : string -> bool.
  Definition chosen (g : string) : list string := filter set (members g).
  Definition conflict (g : string) : Prop := 1 < List.length (chosen g).
  (** [own]: what its own check says. *)
  Definition judged (own : bool) (v : verdict) : Prop :=
    match v with
    | Fine => (forall g, ~ conflict g) /\ own = true
    | Clash g names => conflict g /\ names = chosen g
    | Refused => (forall g, ~ conflict g) /\ own = false
    end.
End Options.
