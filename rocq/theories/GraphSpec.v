(** Specification for property C18: what the fields of a set of lazy fields are
    worth, said in terms of the builders alone.  No locks, no threads, no order of
    reads. *)
From Coq Require Import List Bool Arith.
From Verif Require Import ProxyTypes MultiSpec.
Import ListNotations.

Section Graph.
  (** What was given at construction, and the builders. *)
  Variable v0 : fid -> option nat.
  Variable bld : fid -> prog.

  (** What a read of a field is answered when the field is worth [o]. *)
  Definition read_answer (o : outcome nat nat) : res nat nat :=
    match o with BOk v => RGuard v | BErr _ | BPanic => RPanic end.
  Definition try_read_answer (o : outcome nat nat) : res nat nat :=
    match o with BOk v => RGuard v | BErr e => RErr e | BPanic => RPanic end.
  Definition lazy_init_answer (o : outcome nat nat) : res nat nat :=
    match o with BOk _ | BErr _ => RUnit | BPanic => RPanic end.

  (** [means f o]: field [f] is worth [o].  [yields p o]: code [p] ends with [o] when
      every field it asks for is answered with what it is worth. *)
  Inductive means : fid -> outcome nat nat -> Prop :=
  | means_given f v : v0 f = Some v -> means f (BOk v)
  | means_built f o : v0 f = None -> yields (bld f) o -> means f o
  with yields : prog -> outcome nat nat -> Prop :=
  | yields_end o : yields (PEnd o) o
  | yields_read f k x o : means f x -> yields (k (read_answer x)) o ->
      yields (PCall f (Proxy ORead) k) o
  | yields_try f k x o : means f x -> yields (k (try_read_answer x)) o ->
      yields (PCall f (Proxy OTryRead) k) o
  | yields_init f k x o : means f x -> yields (k (lazy_init_answer x)) o ->
      yields (PCall f (Proxy OLazyInit) k) o
  | yields_get f k v o : means f (BOk v) -> yields (k (RVal (Some v))) o ->
      yields (PCall f (Proxy GGet) k) o
  | yields_drop f k o : yields (k RUnit) o -> yields (PCall f (Proxy GDrop) k) o.
End Graph.

(** Builders that are functions of other lazy fields: all they do is read. *)
Fixpoint only_reads (p : prog) : Prop :=
  match p with
  | PEnd _ => True
  | PCall f c k =>
      match c with
      | Proxy (ORead | OTryRead | OLazyInit | GGet | GDrop) => True
      | _ => False
      end /\ forall r, only_reads (k r)
  end.

(** User code that changes no field by itself. *)
Fixpoint changes_nothing (p : prog) : Prop :=
  match p with
  | PEnd _ => True
  | PCall f c k =>
      match c with
      | Proxy (OClear | GSet _ | GStore _ | GClear) => False
      | _ => True
      end /\ forall r, changes_nothing (k r)
  end.

(** The same for plain lazy fields, whose accessors give references: there is
    nothing to do with the result but to drop it. *)
Fixpoint only_plain_reads (p : prog) : Prop :=
  match p with
  | PEnd _ => True
  | PCall f c k =>
      match c with
      | Proxy (ORead | OTryRead | GDrop) => True
      | _ => False
      end /\ forall r, only_plain_reads (k r)
  end.

(** Every field that is read has a rank below [n]. *)
Fixpoint reads_below (rank : fid -> nat) (n : nat) (p : prog) : Prop :=
  match p with
  | PEnd _ => True
  | PCall f c k => (c <> Proxy GDrop -> rank f < n) /\ forall r, reads_below rank n (k r)
  end.
