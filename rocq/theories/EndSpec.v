(** How long the methods of a shared object take, and whether they end.

    Property C92: a call of an emitted method makes at most twenty steps of its own, the
    letting go of the guard it may have handed out among them, whatever other activities
    do in between; when user code lets go of its guards and builders end, all calls end. *)
From Coq Require Import List Bool Arith.
From Verif Require Import ProxyTypes ArgsModel ThreadSpec ThreadModel ObjectModel.
Import ListNotations.

(** Who acts. *)
Definition actor (x : mact) : aid :=
  match x with
  | MInvoke a _ _ | MUse a _ | MGo a | MStep a | MBuilt a _ | MAbandon a => a
  end.
(** Which activity of which field an action belongs to. *)
Definition whose (x : oact) : nat * aid :=
  match x with OAct i y => (i, actor y) | OInner _ _ j a _ _ => (j, a) end.
(** Calls and guards asked something of: what only user code begins. *)
Definition asks_more (x : oact) : bool :=
  match x with
  | OAct _ (MInvoke _ _ _) | OAct _ (MUse _ (Look | Put _)) | OInner _ _ _ _ _ _ => true
  | _ => false
  end.
Definition count {A} (p : A -> bool) (l : list A) : nat := List.length (filter p l).
(** Nobody is in a call, nobody keeps a guard. *)
Definition all_over (s : object) : Prop :=
  forall i fs a, nth_error (o_fields s) i = Some fs -> place_of fs a = Free.
(** Nothing new is asked, and builders end as [out] says. *)
Definition winding_down (out : nat -> aid -> outcome nat nat) (x : oact) : Prop :=
  asks_more x = false /\
  match x with OAct i (MBuilt b o) => o = out i b | OAct _ (MAbandon _) => False | _ => True end.
