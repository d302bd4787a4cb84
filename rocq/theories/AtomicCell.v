(** Specification: an atomic optional cell with a builder.

    This is what a user of a lazy field may think of: a cell that is empty or holds
    one value.  There are no locks, no flag and no program counters in it.  Every
    call takes effect at one instant between the call and its return.  A history
    (the observable events of an execution) is acceptable when this machine can
    produce it. *)
From Coq Require Import List Bool Arith.
From Verif Require Import ProxyTypes.
Import ListNotations.

Section Spec.
  Context {V E : Type}.
  (** Whether calls may be abandoned (futures dropped): true for async. *)
  Variable cancellable : bool.

  (** Where a call is, as far as the specification goes. *)
  Inductive status : Type :=
  | SIdle (h : hold)                   (* user code, keeping guard h *)
  | SCalled (h : hold) (o : op V)      (* called, no effect yet *)
  | SBuilding (o : op V)               (* the builder runs on behalf of this call *)
  | SBuilt (o : op V) (v : V)          (* builder done, result not yet in the cell *)
  | SEnsured (o : op V)                (* this call has filled the cell *)
  | SDone (h : hold) (r : res V E).    (* took effect, will return r and keep h *)

  Record cell : Type := mkcell {
    content : option V;
    building : option aid;
    stat : aid -> status
  }.

  Definition cell_init (ov : option V) : cell := mkcell ov None (fun _ => SIdle HNone).

  Definition put (c : cell) (a : aid) (x : status) : cell :=
    mkcell (content c) (building c) (fun b => if Nat.eqb b a then x else stat c b).
  Definition fill (c : cell) (ov : option V) : cell := mkcell ov (building c) (stat c).
  Definition lock_build (c : cell) (b : option aid) : cell := mkcell (content c) b (stat c).

  (** Calls that need a value and fill the cell by running the builder. *)
  Definition reading (o : op V) : bool :=
    match o with ORead | OTryRead | OReadMut | OTryReadMut | OLazyInit => true | _ => false end.

  (** What they return, and the guard the caller keeps, when the cell holds [v]. *)
  Definition reading_ok (o : op V) (v : V) : hold * res V E :=
    match o with
    | ORead | OTryRead => (HR, RGuard v)
    | OReadMut | OTryReadMut => (HM, RGuard v)
    | _ => (HNone, RUnit)
    end.

  (** What they return when the builder fails: the plain forms panic, the try forms
      pass the error on, lazy_init says nothing. *)
  Definition reading_err (o : op V) (e : E) : res V E :=
    match o with
    | OTryRead | OTryReadMut => RErr e
    | OLazyInit => RUnit
    | _ => RPanic
    end.

  (** Calls without a builder: new content, guard kept, answer.  [None]: no answer is
      acceptable. *)
  Definition simple (h : hold) (o : op V) (c : option V) : option (option V * hold * res V E) :=
    match o with
    | OWrite => Some (c, HW, RUnit)
    | OClear => Some (None, h, RVal c)
    | OIsSet => Some (c, h, RBool (is_some c))
    | OClone => Some (c, h, RClone c (is_some c) true)
    | ODebug => Some (c, h, RVal c)
    | GGet => match c with Some v => Some (c, h, RVal (Some v)) | None => None end
    | GSet v => match c with Some _ => Some (Some v, h, RUnit) | None => None end
    | GStore v => Some (Some v, h, RVal c)
    | GClear => Some (None, h, RVal c)
    | GDrop => Some (c, HNone, RUnit)
    | _ => None
    end.

  Inductive cstep : cell -> list (event V E) -> cell -> Prop :=
  | c_call c a h o :
      stat c a = SIdle h -> callable h o = true ->
      cstep c [EvCall a o] (put c a (SCalled h o))
  | c_ret c a h r :
      stat c a = SDone h r ->
      cstep c [EvRet a r] (put c a (SIdle h))
  (* a call without a builder; the content is not changed while a builder runs *)
  | c_simple c a h o ov h' r :
      stat c a = SCalled h o -> simple h o (content c) = Some (ov, h', r) ->
      (building c = None \/ ov = content c) ->
      cstep c [] (put (fill c ov) a (SDone h' r))
  (* a reading call that finds a value *)
  | c_hit c a h o v :
      stat c a = SCalled h o -> reading o = true -> content c = Some v ->
      cstep c [] (put c a (SDone (fst (reading_ok o v)) (snd (reading_ok o v))))
  (* a reading call that finds none runs the builder, one at a time *)
  | c_build c a h o :
      stat c a = SCalled h o -> reading o = true ->
      content c = None -> building c = None ->
      cstep c [EvBuildStart a] (put (lock_build c (Some a)) a (SBuilding o))
  | c_built c a o v :
      stat c a = SBuilding o ->
      cstep c [EvBuildEnd a (BOk v)] (put c a (SBuilt o v))
  | c_fail c a o e :
      stat c a = SBuilding o ->
      cstep c [EvBuildEnd a (BErr e)]
            (put (lock_build c None) a (SDone HNone (reading_err o e)))
  | c_panic c a o :
      stat c a = SBuilding o ->
      cstep c [EvBuildEnd a BPanic] (put (lock_build c None) a (SDone HNone RPanic))
  (* its result goes into the cell, which is still empty *)
  | c_install c a o v :
      stat c a = SBuilt o v -> content c = None ->
      cstep c [] (put (lock_build (fill c (Some v)) None) a (SEnsured o))
  | c_ensured c a o v :
      stat c a = SEnsured o -> content c = Some v ->
      cstep c [] (put c a (SDone (fst (reading_ok o v)) (snd (reading_ok o v))))
  (* async only: a future dropped before it took effect, or while it runs the
     builder, or after it has filled the cell *)
  | c_cancel c a o :
      cancellable = true -> stat c a = SCalled HNone o ->
      cstep c [] (put c a (SDone HNone RCancelled))
  | c_cancel_build c a o :
      cancellable = true -> stat c a = SBuilding o ->
      cstep c [] (put (lock_build c None) a (SDone HNone RCancelled)).

  (** Histories the specification can produce. *)
  Inductive cruns : cell -> list (event V E) -> cell -> Prop :=
  | cr_nil c : cruns c [] c
  | cr_step c t1 c1 t2 c2 : cstep c t1 c1 -> cruns c1 t2 c2 -> cruns c (t1 ++ t2) c2.

  Definition cell_history (ov : option V) (t : list (event V E)) : Prop :=
    exists c, cruns (cell_init ov) t c.
End Spec.

Arguments cell : clear implicits.
Arguments status : clear implicits.
