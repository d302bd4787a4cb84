(** Vocabulary and specification for many async fields used by many tasks.  The
    calls, programs and orders are those of MultiSpec.v; nothing here refers to the
    code of the containers.

    Property C59: builders that only touch lower fields cannot deadlock, also when
    futures are dropped.
    Property C60: no lock outlives the task that took it.
    Property C61: builders that depend on themselves never finish.
    Property C62: blocking calls made inside the runtime.
    Property C63: the order of async lazy reads does not matter.
    Property C64: a task that keeps a guard and asks the same field again. *)
From Coq Require Import List Bool Arith.
From Verif Require Import ProxyTypes MultiSpec.
Import ListNotations.

(** What is seen of a run: which task starts the builder of which field, how it
    ends, and what each call returns. *)
Inductive tevent : Type :=
| TStart (t : tid) (f : fid)
| TEnd (t : tid) (f : fid) (o : outcome nat nat)
| TRet (t : tid) (f : fid) (c : call) (r : res nat nat).

(** How often the builder of [f] was started. *)
Fixpoint tstarts (f : fid) (l : list tevent) : nat :=
  match l with
  | [] => 0
  | TStart _ g :: l' => (if Nat.eqb g f then 1 else 0) + tstarts f l'
  | _ :: l' => tstarts f l'
  end.

(** What a schedule can do to a task: let it go on ([n] picks what a builder does),
    drop the future of a call made by the task itself, drop the future of a call made
    by one of the builders that are running (counted from the innermost), abort the
    task. *)
Inductive act : Type :=
| Go (n : nat)
| DropOwn
| DropIn (i : nat)
| Abort.

(** Nobody drops anything. *)
Definition undisturbed (a : tid * act) : Prop :=
  match snd a with Go _ => True | _ => False end.

(** Builders' own calls are left alone. *)
Definition builders_left_alone (a : tid * act) : Prop :=
  match snd a with DropIn _ => False | _ => True end.

(** Nobody drops anything of task [t]. *)
Definition spares (t : tid) (a : tid * act) : Prop := fst a = t -> undisturbed a.

(** The calls that are not async and wait for the lock inside. *)
Definition blocking (c : call) : bool :=
  match c with
  | Proxy (OClone | ODebug) | EqWith _ => true
  | _ => false
  end.

(** The calls that can share a field with those who read it. *)
Definition shares_lock (c : call) : bool :=
  match c with
  | Proxy (OClone | ODebug) | EqWith _ | LockRead => true
  | _ => false
  end.

(** The code cannot end without having waited for the lock of [f] (a blocking call
    might panic instead). *)
Fixpoint must_await (f : fid) (p : prog) : Prop :=
  match p with
  | PEnd _ => False
  | PCall g c k =>
      (g = f /\ takes_lock c = true /\ blocking c = false) \/ forall r, must_await f (k r)
  end.

(** How many drops and aborts there are. *)
Fixpoint disturbances (l : list (tid * act)) : nat :=
  match l with
  | [] => 0
  | (_, Go _) :: l' => disturbances l'
  | _ :: l' => S (disturbances l')
  end.
