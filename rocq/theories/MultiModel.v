(** Model of many sync fields used by many threads at once:
    /repo/fieldx/src/sync/fxproxy.rs (lazy fields) and
    /repo/fieldx/src/sync/fxlock.rs (locked fields), with builders that are user
    code calling back into fields.

    It follows SyncProxyModel.v point by point, and adds what that model leaves
    out: several fields, the thread that runs a builder, and the lock as parking_lot
    has it.  parking_lot's RwLock is not in /repo; its algorithm is taken from its
    documentation and source (lock_api/parking_lot 0.12, raw_rwlock.rs): a writer
    first takes the writer bit (it needs no writer bit and no upgradable lock) and
    then waits until the readers are gone; an upgrade swaps the upgradable lock for
    the writer bit at once and then waits for the readers; a reader has to wait as
    soon as the writer bit is taken, even while that writer still waits.

    Simplifications:
    - values and errors are numbers;
    - sequentially consistent memory (see SyncProxyModel.v);
    - [builder] (fxproxy.rs:74) is Some from construction on and its lock is only
      ever read, so it never blocks; it is left out;
    - Debug of a locked field (fxlock.rs:73-80) is parking_lot's, which does not wait;
      left out;
    - which lock request is served first is up to the schedule (parking_lot's queue
      and its eventual fairness choose among these schedules);
    - what a builder does may depend on a number picked by the schedule, which
      stands for everything else it can depend on. *)
From Coq Require Import List Bool Arith.
From Verif Require Import ProxyTypes MultiSpec.
Import ListNotations.

(** The five entry points that go through read_or_init:
    sync/fxproxy.rs:134-202. *)
Inductive rmode : Type := MRead | MTryRead | MReadMut | MTryReadMut | MLazy.

(** Where a call is in the source.  Line numbers are those of sync/fxproxy.rs
    unless marked otherwise. *)
Inductive pc : Type :=
| Ret (h : hold) (r : res nat nat) (* about to return [r] with guard [h] *)
(* read_or_init, 138-161 *)
| I_Acq (m : rmode)           (* 142: upgradable_read *)
| I_Check (m : rmode)         (* 143 *)
| I_Upg (m : rmode)           (* 144: upgrade, taking the writer bit *)
| I_Drain (m : rmode)         (* 144: upgrade, waiting for the readers *)
| I_Recheck (m : rmode)       (* 146 *)
| I_Build (m : rmode)         (* 148-150: about to invoke the builder *)
| I_SetVal (m : rmode) (v : nat) (* 150: assignment *)
| I_SetFlag (m : rmode)       (* 151 *)
| I_Down (m : rmode)          (* 156 *)
| I_Done (m : rmode)          (* 160 *)
| I_Fail (m : rmode) (e : nat)(* 150: `?` on Err *)
| I_Unwind (m : rmode)        (* panic while holding wguard *)
(* read / try_read 166-172, 186-191 *)
| R_Map (m : rmode)
(* read_mut / try_read_mut 176-181, 196-201 *)
| M_Upg (m : rmode)           (* 178/198: upgrade, taking the writer bit *)
| M_Drain (m : rmode)         (* 178/198: upgrade, waiting for the readers *)
| M_Map (m : rmode)           (* 179/199 *)
(* write, 204-206 *)
| W_Acq                       (* 205: write, taking the writer bit *)
| W_Drain                     (* 205: write, waiting for the readers *)
(* clear, 214-217, 208-211 *)
| C_Acq
| C_Drain
| C_Flag
| C_Take
| C_Rel (old : option nat)
(* is_set, 127-130 *)
| L_Load
(* clone, 248-256; fxlock.rs:67-70 *)
| K_Acq
| K_Val
| K_Flag (ov : option nat)
| K_Rel (ov : option nat) (b : bool)
(* Debug::fmt, 94-100 *)
| D_Acq
| D_Val
| D_Rel (ov : option nat)
(* PartialEq::eq, 264-268; fxlock.rs:27-32 *)
| Q_Acq (g : fid)             (* 265: self.value.read() *)
| Q_Acq2 (g : fid)            (* 266: other.value.read() *)
| Q_Cmp (g : fid)             (* 267 *)
| Q_Rel2 (g : fid) (b : bool) (* 268: otherguard dropped *)
| Q_Rel (b : bool)            (* 268: myguard dropped *)
(* locked fields: Deref to RwLock, fxlock.rs:43-48, then read() / write() *)
| LR_Acq
| LR_Map
| LW_Acq
| LW_Drain
| LW_Map
(* through guards *)
| G_Get (h : hold)
| G_Set (v : nat)
| S_Flag (v : nat)            (* 233 *)
| S_Rep (v : nat)             (* 234 *)
| X_Flag                      (* 239 -> 209 *)
| X_Take                      (* 239 -> 210 *)
| G_Drop (h : hold).

(** One field: sync/fxproxy.rs:68-75 and sync/fxlock.rs:9 (whose value is always
    there), with the lock made explicit: the thread with the writer bit, the thread
    with the upgradable lock, the readers. *)
Record cell : Type := mkcell {
  value : option nat;
  flag : bool;
  lw : option tid;
  lu : option tid;
  lr : list tid
}.

Definition cells := fid -> cell.

(** Updates one field: bookkeeping, stands for no code. *)
Definition upd (F : cells) (f : fid) (c : cell) : cells :=
  fun g => if Nat.eqb g f then c else F g.

(** Bookkeeping: assignments to the parts of a field. *)
Definition set_value (c : cell) (ov : option nat) : cell := mkcell ov (flag c) (lw c) (lu c) (lr c).
Definition set_flag (c : cell) (b : bool) : cell := mkcell (value c) b (lw c) (lu c) (lr c).
Definition set_lock (c : cell) (w u : option tid) (r : list tid) : cell :=
  mkcell (value c) (flag c) w u r.

(** A read guard of thread [t] goes away: one reader less. *)
Fixpoint drop_one (t : tid) (l : list tid) : list tid :=
  match l with
  | [] => []
  | x :: l' => if Nat.eqb x t then l' else x :: drop_one t l'
  end.

(** Dropping a guard (the Drop of parking_lot's guards). *)
Definition release (F : cells) (t : tid) (f : fid) (h : hold) : cells :=
  match h with
  | HNone => F
  | HR => upd F f (set_lock (F f) (lw (F f)) (lu (F f)) (drop_one t (lr (F f))))
  | HM | HW => upd F f (set_lock (F f) None (lu (F f)) (lr (F f)))
  end.

(** Where a call starts: sync/fxproxy.rs:127-217, 248-249, 264-265, 94-95;
    fxlock.rs:27-28, 43-48, 67-68. *)
Definition enter (c : call) : option pc :=
  match c with
  | Proxy ORead => Some (I_Acq MRead)
  | Proxy OTryRead => Some (I_Acq MTryRead)
  | Proxy OReadMut => Some (I_Acq MReadMut)
  | Proxy OTryReadMut => Some (I_Acq MTryReadMut)
  | Proxy OLazyInit => Some (I_Acq MLazy)
  | Proxy OWrite => Some W_Acq
  | Proxy OClear => Some C_Acq
  | Proxy OIsSet => Some L_Load
  | Proxy OClone => Some K_Acq
  | Proxy ODebug => Some D_Acq
  | LockRead => Some LR_Acq
  | LockWrite => Some LW_Acq
  | EqWith g => Some (Q_Acq g)
  | _ => None
  end.

(** Where a use of a guard starts: sync/fxproxy.rs:232-239 and the Deref, DerefMut
    and Drop of parking_lot's guards. *)
Definition enter_guard (h : hold) (c : call) : option pc :=
  match h, c with
  | HR, Proxy GGet => Some (G_Get HR)
  | HM, Proxy GGet => Some (G_Get HM)
  | HM, Proxy (GSet v) => Some (G_Set v)
  | HW, Proxy (GStore v) => Some (S_Flag v)
  | HW, Proxy GClear => Some X_Flag
  | HR, Proxy GDrop => Some (G_Drop HR)
  | HM, Proxy GDrop => Some (G_Drop HM)
  | HW, Proxy GDrop => Some (G_Drop HW)
  | _, _ => None
  end.

(** What the caller gets when the builder failed: sync/fxproxy.rs:168, 178 (unwrap),
    188, 198 (`?`), 135 (ignored). *)
Definition fail_res (m : rmode) (e : nat) : res nat nat :=
  match m with
  | MRead | MReadMut => RPanic
  | MTryRead | MTryReadMut => RErr e
  | MLazy => RUnit
  end.

(** The value of [option nat] against another, as derived PartialEq does:
    sync/fxproxy.rs:267, fxlock.rs:31. *)
Definition same_value (a b : option nat) : bool :=
  match a, b with
  | None, None => true
  | Some x, Some y => Nat.eqb x y
  | _, _ => false
  end.

(** One step of the code of a call by thread [t] on field [f]; [None]: it has to
    wait (or the step is not one of the container's: see [tstep]).  Lines as in
    [pc]. *)
Definition pstep (F : cells) (t : tid) (f : fid) (p : pc) : option (cells * pc) :=
  let c := F f in
  let go x := Some (F, x) in
  let lock w u r x := Some (upd F f (set_lock c w u r), x) in
  match p with
  | Ret _ _ | I_Build _ => None
  | I_Acq m =>
      match lw c, lu c with
      | None, None => lock None (Some t) (lr c) (I_Check m)
      | _, _ => None
      end
  | I_Check m => match value c with None => go (I_Upg m) | Some _ => go (I_Done m) end
  | I_Upg m => lock (Some t) None (lr c) (I_Drain m)
  | I_Drain m => match lr c with [] => go (I_Recheck m) | _ => None end
  | I_Recheck m => match value c with None => go (I_Build m) | Some _ => go (I_Down m) end
  | I_SetVal m v => Some (upd F f (set_value c (Some v)), I_SetFlag m)
  | I_SetFlag m => Some (upd F f (set_flag c true), I_Down m)
  | I_Down m => lock None (Some t) (lr c) (I_Done m)
  | I_Done m =>
      match m with
      | MRead | MTryRead => lock (lw c) None (t :: lr c) (R_Map m)
      | MReadMut | MTryReadMut => go (M_Upg m)
      | MLazy => lock (lw c) None (lr c) (Ret HNone RUnit)
      end
  | I_Fail m e => lock None (lu c) (lr c) (Ret HNone (fail_res m e))
  | I_Unwind m => lock None (lu c) (lr c) (Ret HNone RPanic)
  | R_Map m =>
      match value c with
      | Some v => go (Ret HR (RGuard v))
      | None => lock (lw c) (lu c) (drop_one t (lr c)) (Ret HNone RPanic)
      end
  | M_Upg m => lock (Some t) None (lr c) (M_Drain m)
  | M_Drain m => match lr c with [] => go (M_Map m) | _ => None end
  | M_Map m =>
      match value c with
      | Some v => go (Ret HM (RGuard v))
      | None => lock None (lu c) (lr c) (Ret HNone RPanic)
      end
  | W_Acq =>
      match lw c, lu c with
      | None, None => lock (Some t) None (lr c) W_Drain
      | _, _ => None
      end
  | W_Drain => match lr c with [] => go (Ret HW RUnit) | _ => None end
  | C_Acq =>
      match lw c, lu c with
      | None, None => lock (Some t) None (lr c) C_Drain
      | _, _ => None
      end
  | C_Drain => match lr c with [] => go C_Flag | _ => None end
  | C_Flag => Some (upd F f (set_flag c false), C_Take)
  | C_Take => Some (upd F f (set_value c None), C_Rel (value c))
  | C_Rel old => lock None (lu c) (lr c) (Ret HNone (RVal old))
  | L_Load => go (Ret HNone (RBool (flag c)))
  | K_Acq =>
      match lw c with
      | None => lock None (lu c) (t :: lr c) K_Val
      | Some _ => None
      end
  | K_Val => go (K_Flag (value c))
  | K_Flag ov => go (K_Rel ov (flag c))
  | K_Rel ov b => lock (lw c) (lu c) (drop_one t (lr c)) (Ret HNone (RClone ov b true))
  | D_Acq =>
      match lw c with
      | None => lock None (lu c) (t :: lr c) D_Val
      | Some _ => None
      end
  | D_Val => go (D_Rel (value c))
  | D_Rel ov => lock (lw c) (lu c) (drop_one t (lr c)) (Ret HNone (RVal ov))
  | Q_Acq g =>
      match lw c with
      | None => lock None (lu c) (t :: lr c) (Q_Acq2 g)
      | Some _ => None
      end
  | Q_Acq2 g =>
      match lw (F g) with
      | None => Some (upd F g (set_lock (F g) None (lu (F g)) (t :: lr (F g))), Q_Cmp g)
      | Some _ => None
      end
  | Q_Cmp g => go (Q_Rel2 g (same_value (value c) (value (F g))))
  | Q_Rel2 g b => Some (release F t g HR, Q_Rel b)
  | Q_Rel b => Some (release F t f HR, Ret HNone (RBool b))
  | LR_Acq =>
      match lw c with
      | None => lock None (lu c) (t :: lr c) LR_Map
      | Some _ => None
      end
  | LW_Acq =>
      match lw c, lu c with
      | None, None => lock (Some t) None (lr c) LW_Drain
      | _, _ => None
      end
  | LW_Drain => match lr c with [] => go LW_Map | _ => None end
  (* a locked field always has a value; the None cases stand for nothing *)
  | LR_Map =>
      match value c with
      | Some v => go (Ret HR (RGuard v))
      | None => lock (lw c) (lu c) (drop_one t (lr c)) (Ret HNone RPanic)
      end
  | LW_Map =>
      match value c with
      | Some v => go (Ret HM (RGuard v))
      | None => lock None (lu c) (lr c) (Ret HNone RPanic)
      end
  | G_Get h =>
      match value c with
      | Some v => go (Ret h (RVal (Some v)))
      | None => go (Ret h RPanic)
      end
  | G_Set v => Some (upd F f (set_value c (Some v)), Ret HM RUnit)
  | S_Flag v => Some (upd F f (set_flag c true), S_Rep v)
  | S_Rep v => Some (upd F f (set_value c (Some v)), Ret HW (RVal (value c)))
  | X_Flag => Some (upd F f (set_flag c false), X_Take)
  | X_Take => Some (upd F f (set_value c None), Ret HW (RVal (value c)))
  | G_Drop h => Some (release F t f h, Ret HNone RUnit)
  end.

(** A builder's end: sync/fxproxy.rs:150. *)
Definition after_build (m : rmode) (o : outcome nat nat) : pc :=
  match o with
  | BOk v => I_SetVal m v
  | BErr e => I_Fail m e
  | BPanic => I_Unwind m
  end.

(** What a thread is doing: user code, or a call on [f] whose result goes to
    [k]. *)
Inductive code : Type :=
| User (p : prog)
| Call (f : fid) (p : pc) (k : res nat nat -> prog).

(** A call suspended at sync/fxproxy.rs:150 while the builder runs, with the guards
    kept by the code that made it. *)
Record frame : Type := mkframe {
  fr_field : fid;
  fr_mode : rmode;
  fr_cont : res nat nat -> prog;
  fr_held : guards
}.

(** A thread: its current code, the guards kept by it, the calls that wait for it
    (the call stack of the program; no code of its own). *)
Record thread : Type := mkthread {
  code_of : code;
  held : guards;
  stack : list frame
}.

Section Run.
  (** The builders; the number is picked by the schedule. *)
  Variable builder : fid -> nat -> prog.

  (** One step of thread [t]: user code makes a call, a call makes a step
      ([pstep]), a call returns, the builder is invoked (fxproxy.rs:150, 34-40,
      59-65) or comes back; guards left at the end of a piece of user code are
      dropped one by one. *)
  Definition tstep (F : cells) (t : tid) (n : nat) (th : thread)
    : option (cells * thread * list bevent) :=
    match code_of th with
    | User (PEnd o) =>
        match held th with
        | (f, h) :: rest => Some (release F t f h, mkthread (User (PEnd o)) rest (stack th), [])
        | [] =>
            match stack th with
            | [] => None
            | fr :: st =>
                Some (F, mkthread (Call (fr_field fr) (after_build (fr_mode fr) o) (fr_cont fr))
                           (fr_held fr) st,
                      [BEnd t (fr_field fr) o])
            end
        end
    | User (PCall f c k) =>
        if through_guard c then
          match take_guard f (held th) with
          | Some (h, l) =>
              match enter_guard h c with
              | Some p => Some (F, mkthread (Call f p k) l (stack th), [])
              | None => None
              end
          | None => None
          end
        else
          match enter c with
          | Some p => Some (F, mkthread (Call f p k) (held th) (stack th), [])
          | None => None
          end
    | Call f p k =>
        match p with
        | Ret h r => Some (F, mkthread (User (k r)) (keep f h (held th)) (stack th), [])
        | I_Build m =>
            Some (F, mkthread (User (builder f n)) [] (mkframe f m k (held th) :: stack th),
                  [BStart t f])
        | _ =>
            match pstep F t f p with
            | Some (F', p') => Some (F', mkthread (Call f p' k) (held th) (stack th), [])
            | None => None
            end
        end
    end.

  (** The whole system: fields and threads. *)
  Record sys : Type := mksys { fields : cells; threads : list thread }.

  (** Replaces one thread: bookkeeping. *)
  Fixpoint set_nth {A : Type} (n : nat) (l : list A) (x : A) : list A :=
    match l, n with
    | [], _ => []
    | _ :: l', 0 => x :: l'
    | y :: l', S n' => y :: set_nth n' l' x
    end.

  (** One action of a schedule: thread [t] moves, [n] picks what a builder does. *)
  Definition step (s : sys) (a : tid * nat) : option (sys * list bevent) :=
    match nth_error (threads s) (fst a) with
    | Some th =>
        match tstep (fields s) (fst a) (snd a) th with
        | Some (F', th', ev) => Some (mksys F' (set_nth (fst a) (threads s) th'), ev)
        | None => None
        end
    | None => None
    end.

  (** A schedule run from a state; [None]: it asks for an impossible step. *)
  Fixpoint run (s : sys) (l : list (tid * nat)) : option (sys * list bevent) :=
    match l with
    | [] => Some (s, [])
    | a :: l' =>
        match step s a with
        | Some (s1, e1) =>
            match run s1 l' with
            | Some (s2, e2) => Some (s2, e1 ++ e2)
            | None => None
            end
        | None => None
        end
    end.
End Run.

(** Fields right after construction, with or without a value
    (sync/fxproxy.rs:108-114, fxlock.rs:13-15), and threads about to run their
    code. *)
Definition new_cells (v0 : fid -> option nat) : cells :=
  fun f => mkcell (v0 f) (is_some (v0 f)) None None [].

Definition start (v0 : fid -> option nat) (ps : list prog) : sys :=
  mksys (new_cells v0) (map (fun p => mkthread (User p) [] []) ps).

(** Threads that have nothing left to do. *)
Definition finished (th : thread) : bool :=
  match code_of th, held th, stack th with
  | User (PEnd _), [], [] => true
  | _, _, _ => false
  end.
