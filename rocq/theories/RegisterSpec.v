(** A locked field (FXRwLock of either kind) seen from outside: a register behind a
    reader-writer lock.  Nothing here refers to the code of the containers.

    Property C67: a sync locked field always shows the value that was last set through
    a write guard.
    Property C68: the same for async locked fields, with dropped futures. *)
From Coq Require Import List Bool Arith.
From Verif Require Import ProxyTypes MultiSpec TaskSpec.
Import ListNotations.

(** What is seen of a locked field: calls made on it and what they return. *)
Inductive lnote : Type :=
| LCall (t : tid) (c : call)
| LRet (t : tid) (c : call) (r : res nat nat).

Definition who (x : lnote) : tid := match x with LCall t _ | LRet t _ _ => t end.

(** The value last set through a write guard; [v] if there is none. *)
Fixpoint last_set (v : nat) (l : list lnote) : nat :=
  match l with
  | [] => v
  | LRet _ (Proxy (GSet w)) _ :: l' => last_set w l'
  | _ :: l' => last_set v l'
  end.

(** The last that was seen of [t] is that it made the call [c]. *)
Definition busy_with (t : tid) (c : call) (l : list lnote) : Prop :=
  exists l1 l2, l = l1 ++ LCall t c :: l2 /\ Forall (fun x => who x <> t) l2.

(** [ov] is what the field held at some moment after [t] made the call [c], which it is
    still busy with. *)
Definition meanwhile (v0 : nat) (t : tid) (c : call) (before : list lnote) (ov : option nat) : Prop :=
  exists b1 b2, before = b1 ++ b2 /\ busy_with t c b1 /\ Forall (fun x => who x <> t) b2 /\
    ov = Some (last_set v0 b1).

(** What a call may answer, given all that was seen before: guards show the value last
    set; cloning takes it at some moment during the call. *)
Definition truthful (v0 : nat) (before : list lnote) (t : tid) (c : call) (r : res nat nat) : Prop :=
  match c with
  | LockRead | LockWrite => r = RGuard (last_set v0 before)
  | Proxy GGet => r = RVal (Some (last_set v0 before))
  | Proxy (GSet _ | GDrop) => r = RUnit
  | Proxy OClone => exists ov, meanwhile v0 t c before ov /\ r = RClone ov true true
  | EqWith _ => exists b, r = RBool b
  | Proxy _ => False
  end.

(** The same for async fields: a blocking call inside the runtime panics, a dropped
    future counts as cancelled. *)
Definition truthful_async (inside : tid -> bool) (v0 : nat) (before : list lnote) (t : tid) (c : call)
  (r : res nat nat) : Prop :=
  if inside t && blocking c then r = RPanic
  else truthful v0 before t c r \/ ((c = LockRead \/ c = LockWrite) /\ r = RCancelled).

(** Code that uses [f] as a locked field only.  Debug of locked fields is that of the
    lock inside, which is not modelled. *)
Fixpoint lockily (f : fid) (p : prog) : Prop :=
  match p with
  | PEnd _ => True
  | PCall g c k =>
      (g = f ->
       match c with
       | Proxy (GGet | GSet _ | GDrop | OClone) | LockRead | LockWrite | EqWith _ => True
       | Proxy _ => False
       end) /\ forall r, lockily f (k r)
  end.

(** How many calls [t] has made. *)
Fixpoint calls_by (t : tid) (l : list lnote) : nat :=
  match l with
  | [] => 0
  | LCall u _ :: l' => (if Nat.eqb u t then 1 else 0) + calls_by t l'
  | _ :: l' => calls_by t l'
  end.
