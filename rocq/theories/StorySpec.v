(** One lazy field among many: what is seen of it, and what it means that the others
    do not matter.  Nothing here refers to the code of the containers.

    Property C65: an async lazy field among others, with builders that use other
    fields, behaves like the atomic cell of AtomicCell.v.
    Property C66: the same for sync lazy fields. *)
From Coq Require Import List Bool Arith.
From Verif Require Import ProxyTypes MultiSpec.
Import ListNotations.

(** What is seen of a field: a task (or thread) makes a call on it, a builder of it
    starts and ends, a call returns. *)
Inductive note : Type :=
| NCall (t : tid) (o : op nat)
| NStart (t : tid)
| NEnd (t : tid) (b : outcome nat nat)
| NRet (t : tid) (o : op nat) (r : res nat nat).

(** Dropping a guard is not noted: it also happens at the end of a scope, without a
    call.  That a future was dropped is nothing the dropped code can see. *)
Definition noted (o : op nat) : bool := match o with GDrop => false | _ => true end.
Definition noted_ret (o : op nat) (r : res nat nat) : bool :=
  noted o && match r with RCancelled => false | _ => true end.

(** A history of one field on its own (vocabulary of ProxyTypes.v), read as notes:
    [tag] tells which task an activity belongs to, [pend] the last call of each
    activity. *)
Definition mark (pend : aid -> op nat) (a : aid) (o : op nat) : aid -> op nat :=
  fun b => if Nat.eqb b a then o else pend b.

Fixpoint notes (tag : aid -> tid) (pend : aid -> op nat) (h : list (event nat nat)) : list note :=
  match h with
  | [] => []
  | EvCall a o :: h' =>
      (if noted o then [NCall (tag a) o] else []) ++ notes tag (mark pend a o) h'
  | EvRet a r :: h' =>
      (if noted_ret (pend a) r then [NRet (tag a) (pend a) r] else []) ++ notes tag pend h'
  | EvBuildStart a :: h' => NStart (tag a) :: notes tag pend h'
  | EvBuildEnd a b :: h' => NEnd (tag a) b :: notes tag pend h'
  end.

(** The last calls after a history. *)
Fixpoint last_calls (pend : aid -> op nat) (h : list (event nat nat)) : aid -> op nat :=
  match h with
  | [] => pend
  | EvCall a o :: h' => last_calls (mark pend a o) h'
  | _ :: h' => last_calls pend h'
  end.

(** Nobody has called anything yet; the choice of the call does not matter. *)
Definition no_calls : aid -> op nat := fun _ => ORead.

(** Code that uses [f] as a lazy field only. *)
Fixpoint lazily (f : fid) (p : prog) : Prop :=
  match p with
  | PEnd _ => True
  | PCall g c k =>
      match c with
      | Proxy _ => True
      | LockRead | LockWrite => g <> f
      | EqWith h => g <> f /\ h <> f
      end /\ forall r, lazily f (k r)
  end.

(** How often a builder of the field succeeded, and how often someone asked to empty
    the field. *)
Fixpoint successes (l : list note) : nat :=
  match l with
  | [] => 0
  | NEnd _ (BOk _) :: l' => S (successes l')
  | _ :: l' => successes l'
  end.
Fixpoint clears (l : list note) : nat :=
  match l with
  | [] => 0
  | NCall _ (OClear | GClear) :: l' => S (clears l')
  | _ :: l' => clears l'
  end.

(** Notes by which a value can get into the field; answers that show one. *)
Definition brings (v : nat) (x : note) : Prop :=
  match x with
  | NCall _ (GStore w | GSet w) => w = v
  | NEnd _ (BOk w) => w = v
  | _ => False
  end.
Definition reveals (r : res nat nat) (v : nat) : Prop :=
  match r with
  | RGuard w => w = v
  | RVal ov | RClone ov _ _ => ov = Some v
  | _ => False
  end.

(** Room for one success at the start: the field has no value. *)
Definition room (ov : option nat) : nat := match ov with None => 1 | Some _ => 0 end.
