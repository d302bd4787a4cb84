(** Methods of one field called by any number of threads (or tasks): what the cell of
    FieldSpec.v promises then.  Nothing here mentions emitted code, containers or
    generators.

    Property C86: calls of the emitted methods of a lazy field, made concurrently, are
    answered as if each took place at one instant between its call and its return, by the
    very cell that answers them in a single thread. *)
From Coq Require Import List Bool Arith.
From Verif Require Import ProxyTypes ArgsModel FieldSpec.
Import ListNotations.

(** What is done with a guard: look at the value, assign ([None]: clear), drop it. *)
Inductive use := Look | Put (x : option nat) | LetGo.

(** What is seen.  An activity is a call in progress or a guard kept (ProxyTypes.v). *)
Inductive hist :=
| HCall (a : aid) (k : hkind) (n : nat)
| HUse (a : aid) (u : use)
| HRet (a : aid) (o : obs)
| HGone (a : aid).                 (* the future of the call was dropped *)

(** Where an activity is. *)
Inductive wstat :=
| WFree
| WAsked (k : hkind) (n : nat)
| WKeeps (h : guard)
| WUsing (h : guard) (u : use)
| WDone (o : obs) (g : option guard).
Definition wset (x : aid -> wstat) (a : aid) (y : wstat) : aid -> wstat :=
  fun b => if Nat.eqb b a then y else x b.
Definition after (g : option guard) : wstat := match g with Some h => WKeeps h | None => WFree end.

(** A guard is gone. *)
Definition without (h : guard) (c : cellst) : cellst :=
  if gd_write h then mk_cellst (c_val c) (c_readers c) false (c_builds c)
  else mk_cellst (c_val c) (pred (c_readers c)) (c_writer c) (c_builds c).
(** What can be done with a guard. *)
Definition usable (v : view) (h : guard) (u : use) : bool :=
  match u with Put x => gd_write h && assignable v (gd_raw h) x | _ => true end.
Definition handed (v : view) (k : hkind) (an : answer) : option guard :=
  match an with AnErr _ => None | _ => hands_guard v k end.

Section World.
  Variable bld : nat -> outcome nat nat.
  Variable dflt : nat.
  Variable v : view.
  Variable cancellable : bool.

  Inductive wstep : cellst * (aid -> wstat) -> list hist -> cellst * (aid -> wstat) -> Prop :=
  | w_call c x a k n : x a = WFree -> wstep (c, x) [HCall a k n] (c, wset x a (WAsked k n))
  | w_use c x a h u : x a = WKeeps h -> usable v h u = true -> wstep (c, x) [HUse a u] (c, wset x a (WUsing h u))
  | w_ret c x a o g : x a = WDone o g -> wstep (c, x) [HRet a o] (c, wset x a (after g))
  (* the instant of a call *)
  | w_answer c x a k n an c' : x a = WAsked k n -> spec_call bld dflt v k n c = Returns an c' ->
      wstep (c, x) [] (c', wset x a (WDone (ORet an) (handed v k an)))
  | w_panic c x a k n c' : x a = WAsked k n -> spec_call bld dflt v k n c = Panics c' ->
      wstep (c, x) [] (c', wset x a (WDone OPanic None))
  | w_look c x a h : x a = WUsing h Look ->
      wstep (c, x) [] (c, wset x a (WDone (ORet (shown v (gd_raw h) (c_val c))) (Some h)))
  | w_put c x a h y : x a = WUsing h (Put y) -> wstep (c, x) [] (filled c y, wset x a (WDone ODone (Some h)))
  | w_drop c x a h : x a = WUsing h LetGo -> wstep (c, x) [] (without h c, wset x a (WDone ODone None))
  (* an abandoned call has done nothing *)
  | w_gone c x a k n : cancellable = true -> x a = WAsked k n -> wstep (c, x) [HGone a] (c, wset x a WFree).

  Inductive wruns : cellst * (aid -> wstat) -> list hist -> cellst * (aid -> wstat) -> Prop :=
  | wr_nil w : wruns w [] w
  | wr_step w t1 w1 t2 w2 : wstep w t1 w1 -> wruns w1 t2 w2 -> wruns w (t1 ++ t2) w2.
End World.
(** At the beginning nobody does anything. *)
Definition wstart (o : option nat) : cellst * (aid -> wstat) := (mk_cellst o 0 false 0, fun _ => WFree).
