(** Vocabulary and specification for many sync fields used by many threads: what
    user code and builders may do, and what it means for them to keep to an order.
    Nothing here refers to the code of the containers.

    Property C09: builders that only touch lower fields cannot deadlock.
    Property C10: builders that depend on themselves never finish.
    Property C11: comparing two sync fields.
    Property C18: the order of lazy reads does not matter. *)
From Coq Require Import List Bool Arith.
From Verif Require Import ProxyTypes.
Import ListNotations.

(** A field (of some object) and a thread. *)
Definition fid := nat.
Definition tid := nat.

(** A call on one field: a call on a lazy container or through a guard
    ([Proxy], vocabulary of ProxyTypes.v), locking a plain locked field for reading
    or writing, or comparing the field with another one. *)
Inductive call : Type :=
| Proxy (o : op nat)
| LockRead
| LockWrite
| EqWith (g : fid).

(** User code, in a thread or in a builder: it ends with an outcome or makes a call
    and goes on according to what the call returned.  Guards that it still keeps at
    its end are dropped. *)
Inductive prog : Type :=
| PEnd (o : outcome nat nat)
| PCall (f : fid) (c : call) (k : res nat nat -> prog).

(** Does the call work through a guard that the code keeps? *)
Definition through_guard (c : call) : bool :=
  match c with
  | Proxy (GGet | GSet _ | GStore _ | GClear | GDrop) => true
  | _ => false
  end.

(** Calls that take no lock. *)
Definition takes_lock (c : call) : bool :=
  match c with
  | Proxy OIsSet => false
  | _ => negb (through_guard c)
  end.

(** The guard that comes with the result of a call. *)
Definition gives (c : call) (r : res nat nat) : hold :=
  match c, r with
  | Proxy (ORead | OTryRead), RGuard _ => HR
  | LockRead, RGuard _ => HR
  | Proxy (OReadMut | OTryReadMut), RGuard _ => HM
  | LockWrite, RGuard _ => HM
  | Proxy OWrite, RUnit => HW
  | _, _ => HNone
  end.

(** Guards kept: on which field, of which kind. *)
Definition guards := list (fid * hold).

Definition keep (f : fid) (h : hold) (l : guards) : guards :=
  match h with HNone => l | _ => (f, h) :: l end.

(** The guard most recently got on [f], and the others. *)
Fixpoint take_guard (f : fid) (l : guards) : option (hold * guards) :=
  match l with
  | [] => None
  | (g, h) :: l' =>
      if Nat.eqb g f then Some (h, l')
      else match take_guard f l' with
           | Some (x, l'') => Some (x, (g, h) :: l'')
           | None => None
           end
  end.

(** What is seen of a run: which thread starts the
    builder of which field, and how it ends. *)
Inductive bevent : Type :=
| BStart (t : tid) (f : fid)
| BEnd (t : tid) (f : fid) (o : outcome nat nat).

(** How often the builder of [f] was started. *)
Fixpoint starts (f : fid) (l : list bevent) : nat :=
  match l with
  | [] => 0
  | BStart _ g :: l' => (if Nat.eqb g f then 1 else 0) + starts f l'
  | BEnd _ _ _ :: l' => starts f l'
  end.

Section Order.
  Variable rank : fid -> nat.

  (** [f] comes before everything that is locked: before the field being built
      (bound [b]) and before the fields of the guards kept. *)
  Definition lower (b : option nat) (l : guards) (f : fid) : Prop :=
    (forall n, b = Some n -> rank f < n) /\
    (forall g h, In (g, h) l -> rank f < rank g).

  (** Code that takes locks in descending order only: each call that takes a lock is
      on a field lower than all those locked.  Guards are used as their types
      allow. *)
  Fixpoint orderly (b : option nat) (l : guards) (p : prog) : Prop :=
    match p with
    | PEnd _ => True
    | PCall f c k =>
        match c with
        | Proxy ((GGet | GSet _ | GStore _ | GClear | GDrop) as o) =>
            exists h l', take_guard f l = Some (h, l') /\ callable h o = true /\
              forall r, orderly b (match o with GDrop => l' | _ => keep f h l' end) (k r)
        | _ =>
            (takes_lock c = true -> lower b l f) /\
            (forall g, c = EqWith g -> rank g < rank f) /\
            forall r, orderly b (keep f (gives c r) l) (k r)
        end
    end.

  (** Every builder keeps below the field it builds. *)
  Definition builders_orderly (builder : fid -> nat -> prog) : Prop :=
    forall f n, orderly (Some (rank f)) [] (builder f n).
End Order.

Section Cycle.
  Variable C : fid -> Prop.

  (** The calls that need the value of a lazy field. *)
  Definition needs_value (c : call) : Prop :=
    match c with
    | Proxy (ORead | OTryRead | OReadMut | OTryReadMut | OLazyInit) => True
    | _ => False
    end.

  (** The code cannot end without having asked for the value of some field of
      [C]. *)
  Fixpoint must_read (p : prog) : Prop :=
    match p with
    | PEnd _ => False
    | PCall f c k => (C f /\ needs_value c) \/ forall r, must_read (k r)
    end.

  (** The code never puts a value into a field of [C] itself. *)
  Fixpoint never_stores (p : prog) : Prop :=
    match p with
    | PEnd _ => True
    | PCall f c k =>
        (C f -> match c with Proxy (GSet _ | GStore _) => False | _ => True end) /\
        forall r, never_stores (k r)
    end.
End Cycle.

(** The code cannot end without having asked for the lock of [f]. *)
Fixpoint must_touch (f : fid) (p : prog) : Prop :=
  match p with
  | PEnd _ => False
  | PCall g c k => (g = f /\ takes_lock c = true) \/ c = EqWith f \/ forall r, must_touch f (k r)
  end.

(** Code that only shares: it compares, clones, prints or locks for reading. *)
Fixpoint only_shares (p : prog) : Prop :=
  match p with
  | PEnd _ => True
  | PCall f c k =>
      match c with
      | Proxy (OClone | ODebug | OIsSet) | LockRead | EqWith _ => True
      | Proxy (GGet | GDrop) => True
      | _ => False
      end /\ forall r, only_shares (k r)
  end.
