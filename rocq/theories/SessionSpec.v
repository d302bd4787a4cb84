(** One user with many cells.  Nothing here mentions emitted code, containers, locks or
    generators.

    Property C96: the owner of an object uses its fields in any order and keeps guards of
    several at once; what is seen is what a record of cells shows, and each field shows what it
    would show if it were used alone. *)
From Coq Require Import List Bool Arith.
From Verif Require Import ProxyTypes ArgsModel FieldSpec ObjectSpec.
Import ListNotations.

Section Session.
  Variable bld : nat -> nat -> outcome nat nat.
  Variable dflt : nat.
  Variable views : list view.
  (** [i, a]: the action [a] with cell [i]; guards are numbered by cell.  Who waits for
      themselves waits for ever. *)
  Fixpoint spec_session (l : list (nat * act)) (us : list ust) : option (list obs * list ust) :=
    match l with
    | [] => Some ([], us)
    | (i, a) :: t =>
        match nth_error views i, nth_error us i with
        | Some v, Some u =>
            match spec_act (bld i) dflt v a u with
            | Some (OWait, u') => Some ([OWait], put us i u')
            | Some (o, u') => match spec_session t (put us i u') with Some (os, us') => Some (o :: os, us') | None => None end
            | None => None
            end
        | _, _ => None
        end
    end.
End Session.
(** What was done with cell [i], as far as the session went, and what was seen of it. *)
Fixpoint done_with (i : nat) (l : list (nat * act)) (os : list obs) : list act :=
  match l, os with
  | (j, a) :: l', _ :: os' => if Nat.eqb j i then a :: done_with i l' os' else done_with i l' os'
  | _, _ => []
  end.
Fixpoint seen_of (i : nat) (l : list (nat * act)) (os : list obs) : list obs :=
  match l, os with
  | (j, _) :: l', o :: os' => if Nat.eqb j i then o :: seen_of i l' os' else seen_of i l' os'
  | _, _ => []
  end.
Definition at_start (ks : list (option nat)) : list ust := map (fun k => mk_ust k [] 0) ks.
