(** Copying, comparing and printing records of cells.  Nothing here mentions emitted code,
    containers, locks or generators.

    Property C97: objects are copied, compared and printed field by field, while guards may be
    kept; what comes out are the contents of the cells, and guards that write are in the way. *)
From Coq Require Import List Bool Arith.
From Verif Require Import ProxyTypes ArgsModel FieldSpec.
Import ListNotations.

(** How something ends: with a result, with a panic, or never. *)
Inductive upshot (A : Type) := Gives (a : A) | Breaks | Hangs.
Arguments Gives {A} a.
Arguments Breaks {A}.
Arguments Hangs {A}.
Definition after {A B} (r : upshot A) (k : A -> upshot B) : upshot B :=
  match r with Gives a => k a | Breaks => Breaks | Hangs => Hangs end.

(** Looking into a cell: a guard that writes is in the way. *)
Definition look (v : view) (u : ust) : upshot (option nat) :=
  if writing (u_guards u) then
    match v_disc v with Direct => Gives (u_val u) | Panicking => Breaks | Blocking | Solo => Hangs end
  else Gives (u_val u).
Fixpoint spec_copy (views : list view) (us : list ust) : upshot (list (option nat)) :=
  match views, us with
  | v :: vs, u :: us' => after (look v u) (fun k => after (spec_copy vs us') (fun ks => Gives (k :: ks)))
  | _, _ => Gives []
  end.
Definition same_content (a b : option nat) : bool :=
  match a, b with Some x, Some y => Nat.eqb x y | None, None => true | _, _ => false end.
(** Up to the first difference. *)
Fixpoint spec_equal (views : list view) (us ws : list ust) : upshot bool :=
  match views, us, ws with
  | v :: vs, u :: us', w :: ws' =>
      after (look v u) (fun a => after (look v w) (fun b => if same_content a b then spec_equal vs us' ws' else Gives false))
  | _, _, _ => Gives true
  end.
(** Printing waits for lazy cells only; of others that are being written nothing is shown. *)
Definition glance (v : view) (u : ust) : upshot (option (option nat)) :=
  if writing (u_guards u) then
    match v_disc v, v_shape v with
    | Direct, _ => Gives (Some (u_val u))
    | (Blocking | Solo), Lazy _ => Hangs
    | _, _ => Gives None
    end
  else Gives (Some (u_val u)).
Fixpoint spec_show (views : list view) (us : list ust) : upshot (list (option (option nat))) :=
  match views, us with
  | v :: vs, u :: us' => after (glance v u) (fun k => after (spec_show vs us') (fun ks => Gives (k :: ks)))
  | _, _ => Gives []
  end.
