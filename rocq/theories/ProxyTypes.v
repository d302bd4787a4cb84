(** Vocabulary shared by the lazy-field models: the calls a user can make on a
    lazy field container, what they return, and what can be observed of an
    execution.  No behaviour is defined here.

    Modelled from /repo/fieldx/src/sync/fxproxy.rs:103-241 and
    /repo/fieldx/src/async/fxproxy.rs:104-249 (the public methods of
    FXProxySync/FXProxyAsync and of their write guards). *)
From Coq Require Import List Bool Arith.
Import ListNotations.

(** An activity: one call in progress, or one guard kept by user code.  A Rust
    thread (or task) that keeps several guards is several activities; the model
    puts no bound on their number.  The interleaving of the activities of one
    thread is one of the interleavings considered. *)
Definition aid := nat.

Section Types.
  (** [V] is the value type of the field, [E] the error type of its builder. *)
  Context {V E : Type}.

  (** How one invocation of the user's builder ends: sync/fxproxy.rs:34-40,
      59-65 ([invoke] returns Ok/Err) or by unwinding (a panic in user code). *)
  Inductive outcome : Type :=
  | BOk (v : V)
  | BErr (e : E)
  | BPanic.

  (** Which guard an activity keeps: none, a mapped read guard (read, try_read),
      a mapped write guard (read_mut, try_read_mut), or the write guard object
      FXWrLockGuardSync/FXWrLockGuardAsync (write): sync/fxproxy.rs:166-206. *)
  Inductive hold : Type := HNone | HR | HM | HW.

  (** The calls: methods of the container (sync/fxproxy.rs:127-217, Clone at
      243-257, Debug at 89-101), and what can be done through a guard: reading
      through it, assigning through the mapped write guard, store and clear of the
      write guard (232-240), dropping it. *)
  Inductive op : Type :=
  | ORead | OTryRead | OReadMut | OTryReadMut | OLazyInit
  | OWrite | OClear | OIsSet | OClone | ODebug
  | GGet | GSet (v : V) | GStore (v : V) | GClear | GDrop.

  (** What a call returns.  [RGuard v]: a guard, with [v] behind it at the time it
      was made; [RClone ov b bs]: a new container with value [ov], flag [b] and a
      builder present iff [bs]; [RPanic]: the call unwound. *)
  Inductive res : Type :=
  | RGuard (v : V)
  | RErr (e : E)
  | RPanic
  | RVal (ov : option V)
  | RBool (b : bool)
  | RUnit
  | RClone (ov : option V) (b bs : bool)
  | RCancelled.

  (** Observable events of an execution. *)
  Inductive event : Type :=
  | EvCall (a : aid) (o : op)
  | EvRet (a : aid) (r : res)
  | EvBuildStart (a : aid)
  | EvBuildEnd (a : aid) (o : outcome).

  (** Which calls may be made by an activity keeping a given guard.  An activity
      without a guard calls the container, one with a guard uses the guard.
      [GSet] needs DerefMut, which only the mapped write guard has; [GStore] and
      [GClear] are methods of the write guard object only. *)
  Definition callable (h : hold) (o : op) : bool :=
    match h, o with
    | HNone, (ORead | OTryRead | OReadMut | OTryReadMut | OLazyInit
             | OWrite | OClear | OIsSet | OClone | ODebug) => true
    | HR, (GGet | GDrop) => true
    | HM, (GGet | GSet _ | GDrop) => true
    | HW, (GStore _ | GClear | GDrop) => true
    | _, _ => false
    end.

  Definition is_some {A : Type} (o : option A) : bool :=
    match o with Some _ => true | None => false end.
End Types.

Arguments outcome : clear implicits.
Arguments op : clear implicits.
Arguments res : clear implicits.
Arguments event : clear implicits.
