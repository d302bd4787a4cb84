(** Specification: an atomic optional cell with a builder and guards that exclude each other.

    AtomicCell.v says what the calls on a lazy field answer; here the guards are part of
    the cell: who keeps a guard for reading, who keeps one for writing, and which calls
    have to wait for that.  A call takes effect at one instant between the call and its
    return, and the builder runs at that very instant.  There are no locks, no flag and no
    program counters.

    Property C85: FXProxySync and FXProxyAsync, used by any number of activities, are such
    a cell. *)
From Coq Require Import List Bool Arith.
From Verif Require Import ProxyTypes AtomicCell.
Import ListNotations.

Section Spec.
  Context {V E : Type}.
  (** Reading, too, waits until no guard is kept (async). *)
  Variable solo : bool.
  (** Calls may be abandoned (async). *)
  Variable cancellable : bool.
  (** The builder, by number of the run. *)
  Variable bld : nat -> outcome V E.

  Record gcell : Type := mkg {
    g_val : option V;
    g_rd : list aid;          (* who keeps a guard for reading *)
    g_wr : option aid;        (* who keeps the guard for writing *)
    g_runs : nat              (* runs of the builder so far *)
  }.
  Definition with_val (c : gcell) (ov : option V) : gcell := mkg ov (g_rd c) (g_wr c) (g_runs c).
  Definition one_more (c : gcell) : gcell := mkg (g_val c) (g_rd c) (g_wr c) (S (g_runs c)).
  Definition add_reader (a : aid) (c : gcell) : gcell := mkg (g_val c) (a :: g_rd c) (g_wr c) (g_runs c).
  Definition set_writer (w : option aid) (c : gcell) : gcell := mkg (g_val c) (g_rd c) w (g_runs c).
  Definition del_reader (a : aid) (c : gcell) : gcell :=
    mkg (g_val c) (filter (fun b => negb (Nat.eqb b a)) (g_rd c)) (g_wr c) (g_runs c).

  (** Nobody is in the way of a reader; of someone who wants to be alone. *)
  Definition open (c : gcell) : bool := match g_wr c with None => true | Some _ => false end.
  Definition free (c : gcell) : bool := open c && match g_rd c with [] => true | _ => false end.

  Definition for_writing (o : op V) : bool :=
    match o with OReadMut | OTryReadMut => true | _ => false end.
  (** The value is there: the caller gets a guard, or just knows. *)
  Definition grant (a : aid) (o : op V) (v : V) (c : gcell) : gcell * hold * res V E :=
    match o with
    | ORead | OTryRead => (add_reader a c, HR, RGuard v)
    | OReadMut | OTryReadMut => (set_writer (Some a) c, HM, RGuard v)
    | _ => (c, HNone, RUnit)
    end.

  (** What the call [o] of [a], who keeps [h], does; [None]: it has to wait. *)
  Definition effect (a : aid) (h : hold) (o : op V) (c : gcell) : option (gcell * hold * res V E) :=
    match h, o with
    | HNone, (ORead | OTryRead | OReadMut | OTryReadMut | OLazyInit) =>
        match g_val c with
        | Some v => if (if solo || for_writing o then free c else open c) then Some (grant a o v c) else None
        | None =>
            if free c then
              Some match bld (g_runs c) with
                   | BOk v => grant a o v (one_more (with_val c (Some v)))
                   | BErr e => (one_more c, HNone, reading_err o e)
                   | BPanic => (one_more c, HNone, RPanic)
                   end
            else None
        end
    | HNone, OWrite => if free c then Some (set_writer (Some a) c, HW, RUnit) else None
    | HNone, OClear => if free c then Some (with_val c None, HNone, RVal (g_val c)) else None
    | HNone, OIsSet => Some (c, HNone, RBool (is_some (g_val c)))
    (* copying and printing are not held up here, although the real ones wait for writers *)
    | HNone, OClone => Some (c, HNone, RClone (g_val c) (is_some (g_val c)) true)
    | HNone, ODebug => Some (c, HNone, RVal (g_val c))
    | (HR | HM), GGet => match g_val c with Some v => Some (c, h, RVal (Some v)) | None => None end
    | HM, GSet v => Some (with_val c (Some v), HM, RUnit)
    | HW, GStore v => Some (with_val c (Some v), HW, RVal (g_val c))
    | HW, GClear => Some (with_val c None, HW, RVal (g_val c))
    | HR, GDrop => Some (del_reader a c, HNone, RUnit)
    | (HM | HW), GDrop => Some (set_writer None c, HNone, RUnit)
    | _, _ => None
    end.

  (** Where a call is. *)
  Inductive gstat : Type :=
  | GIdle (h : hold)
  | GCalled (h : hold) (o : op V)
  | GDone (h : hold) (r : res V E).
  Definition gset (x : aid -> gstat) (a : aid) (y : gstat) : aid -> gstat :=
    fun b => if Nat.eqb b a then y else x b.

  (** Calls that can be abandoned while they wait. *)
  Definition awaited (o : op V) : bool :=
    match o with ORead | OTryRead | OReadMut | OTryReadMut | OLazyInit | OWrite | OClear => true | _ => false end.

  (** One step; only calls and returns are seen. *)
  Inductive gstep : gcell * (aid -> gstat) -> list (event V E) -> gcell * (aid -> gstat) -> Prop :=
  | g_call c x a h o : x a = GIdle h -> callable h o = true -> gstep (c, x) [EvCall a o] (c, gset x a (GCalled h o))
  | g_eff c x a h o c' h' r : x a = GCalled h o -> effect a h o c = Some (c', h', r) ->
      gstep (c, x) [] (c', gset x a (GDone h' r))
  | g_ret c x a h r : x a = GDone h r -> gstep (c, x) [EvRet a r] (c, gset x a (GIdle h))
  | g_cancel c x a o : cancellable = true -> x a = GCalled HNone o -> awaited o = true ->
      gstep (c, x) [] (c, gset x a (GDone HNone RCancelled)).

  Inductive gruns : gcell * (aid -> gstat) -> list (event V E) -> gcell * (aid -> gstat) -> Prop :=
  | gr_nil w : gruns w [] w
  | gr_step w t1 w1 t2 w2 : gstep w t1 w1 -> gruns w1 t2 w2 -> gruns w (t1 ++ t2) w2.

  Definition ginit (ov : option V) : gcell * (aid -> gstat) := (mkg ov [] None 0, fun _ => GIdle HNone).
End Spec.
Arguments gcell : clear implicits.
Arguments gstat : clear implicits.

(** Calls and returns of a history, and how the builder runs ended, in order. *)
Section History.
  Context {V E : Type}.
  Definition visible (t : list (event V E)) : list (event V E) :=
    filter (fun e => match e with EvCall _ _ | EvRet _ _ => true | _ => false end) t.
  Definition ends (t : list (event V E)) : list (outcome V E) :=
    flat_map (fun e => match e with EvBuildEnd _ b => [b] | _ => [] end) t.
  (** [bld] is how the runs of the builder ended. *)
  Definition oracle (bld : nat -> outcome V E) (t : list (event V E)) : Prop :=
    forall i b, nth_error (ends t) i = Some b -> bld i = b.
End History.
