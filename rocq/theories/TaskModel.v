(** Model of many async fields used by many tasks at once:
    /repo/fieldx/src/async/fxproxy.rs (lazy fields) and
    /repo/fieldx/src/async/fxlock.rs (locked fields), with builders that are user
    code calling back into fields.

    It follows AsyncProxyModel.v point by point, and adds what that model leaves out:
    several fields, the task that runs a builder, tokio's queue, the runtime.  tokio's
    RwLock is not in /repo; what is used of it is in its documentation: requests are
    served strictly in the order in which they were made, a request that has to wait
    makes all later ones wait; dropping a future takes its request out of the queue;
    blocking_read panics when the calling thread is inside a tokio runtime.

    Simplifications:
    - values and errors are numbers;
    - sequentially consistent memory (see AsyncProxyModel.v);
    - [builder] (async/fxproxy.rs:88) is Some from construction on and its lock is
      only ever read, so it never blocks; its [read().await] (157) is a step at which
      the future can be dropped;
    - Debug of a locked field (fxlock.rs:82-88) is tokio's, which does not wait; left
      out;
    - what a builder does may depend on a number picked by the schedule, which stands
      for everything else it can depend on;
    - a task or thread is either always inside a tokio runtime or never. *)
From Coq Require Import List Bool Arith.
From Verif Require Import ProxyTypes MultiSpec TaskSpec.
Import ListNotations.

(** The five entry points that go through read_or_init:
    async/fxproxy.rs:149-209. *)
Inductive rmode : Type := MRead | MTryRead | MReadMut | MTryReadMut | MLazy.

(** Where a call is in the source.  Line numbers are those of async/fxproxy.rs
    unless marked otherwise; [.._Acq] makes a request, [.._Wait] is in the queue. *)
Inductive pc : Type :=
| Ret (h : hold) (r : res nat nat) (* about to return [r] with guard [h] *)
(* read_or_init, 153-166 *)
| I_Acq (m : rmode)           (* 154: write().await *)
| I_Wait (m : rmode)
| I_Check (m : rmode)         (* 155 *)
| I_GetBld (m : rmode)        (* 157: builder.read().await *)
| I_Build (m : rmode)         (* 159: about to invoke the builder *)
| I_SetVal (m : rmode) (v : nat) (* 159: assignment *)
| I_SetFlag (m : rmode)       (* 160 *)
| I_Done (m : rmode)          (* 165 *)
| I_Fail (m : rmode) (e : nat)(* 159: `?` on Err *)
| I_Unwind (m : rmode)        (* panic while holding the guard *)
(* read / try_read 171-176, 191-196 *)
| R_Map (m : rmode)
(* read_mut / try_read_mut 181-186, 201-209 *)
| M_Map (m : rmode)
(* write, 212-214 *)
| W_Acq
| W_Wait
(* clear, 222-225, 216-219 *)
| C_Acq
| C_Wait
| C_Flag
| C_Take
| C_Rel (old : option nat)
(* is_set, 143-145 *)
| L_Load
(* clone, 256-264; fxlock.rs:75-78 *)
| K_Acq                       (* 257: value.blocking_read() *)
| K_Wait
| K_Val
| K_Flag (ov : option nat)
| K_Rel (ov : option nat) (b : bool)
(* Debug::fmt, 108-114 *)
| D_Acq
| D_Wait
| D_Val
| D_Rel (ov : option nat)
(* PartialEq::eq of locked fields, fxlock.rs:37-42 *)
| Q_Acq (g : fid)             (* 38: self.0.blocking_read() *)
| Q_Wait (g : fid)
| Q_Acq2 (g : fid)            (* 39: other.0.blocking_read() *)
| Q_Wait2 (g : fid)
| Q_Cmp (g : fid)             (* 41 *)
| Q_Rel2 (g : fid) (b : bool) (* 42: otherguard dropped *)
| Q_Rel (b : bool)            (* 42: myguard dropped *)
(* locked fields, fxlock.rs:23-30 *)
| LR_Acq
| LR_Wait
| LR_Map
| LW_Acq
| LW_Wait
| LW_Map
(* through guards *)
| G_Get (h : hold)
| G_Set (v : nat)
| S_Flag (v : nat)            (* 241 *)
| S_Rep (v : nat)             (* 242 *)
| X_Flag                      (* 247 -> 217 *)
| X_Take                      (* 247 -> 218 *)
| G_Drop (h : hold).

(** One field: async/fxproxy.rs:82-89 and async/fxlock.rs:9 (whose value is always
    there), with the lock made explicit: the task with the exclusive lock, the tasks
    that share it, the requests that wait in order ([true]: exclusive). *)
Record cell : Type := mkcell {
  value : option nat;
  flag : bool;
  lw : option tid;
  lr : list tid;
  lq : list (tid * bool)
}.

Definition cells := fid -> cell.

(** Updates one field: bookkeeping, stands for no code. *)
Definition upd (F : cells) (f : fid) (c : cell) : cells :=
  fun g => if Nat.eqb g f then c else F g.

(** Bookkeeping: assignments to the parts of a field. *)
Definition set_value (c : cell) (ov : option nat) : cell := mkcell ov (flag c) (lw c) (lr c) (lq c).
Definition set_flag (c : cell) (b : bool) : cell := mkcell (value c) b (lw c) (lr c) (lq c).
Definition set_lock (c : cell) (w : option tid) (r : list tid) (q : list (tid * bool)) : cell :=
  mkcell (value c) (flag c) w r q.

(** A read guard of task [t] goes away: one reader less. *)
Fixpoint drop_one (t : tid) (l : list tid) : list tid :=
  match l with
  | [] => []
  | x :: l' => if Nat.eqb x t then l' else x :: drop_one t l'
  end.

(** A waiting future of task [t] is dropped: its request leaves the queue (tokio's
    contract). *)
Fixpoint unqueue (t : tid) (l : list (tid * bool)) : list (tid * bool) :=
  match l with
  | [] => []
  | (x, w) :: l' => if Nat.eqb x t then l' else (x, w) :: unqueue t l'
  end.

(** Dropping a guard (the Drop of tokio's guards). *)
Definition release (F : cells) (t : tid) (f : fid) (h : hold) : cells :=
  match h with
  | HNone => F
  | HR => upd F f (set_lock (F f) (lw (F f)) (drop_one t (lr (F f))) (lq (F f)))
  | HM | HW => upd F f (set_lock (F f) None (lr (F f)) (lq (F f)))
  end.

(** Can the lock be given now, leaving the queue aside?  tokio's contract. *)
Definition free (c : cell) (w : bool) : bool :=
  match lw c, w with
  | Some _, _ => false
  | None, true => match lr c with [] => true | _ => false end
  | None, false => true
  end.

(** The lock is given: tokio's contract. *)
Definition take (c : cell) (t : tid) (w : bool) (q : list (tid * bool)) : cell :=
  if w then set_lock c (Some t) (lr c) q else set_lock c (lw c) (t :: lr c) q.

(** A request, tokio's contract: it is served at once ([yes]) if nobody waits and the
    lock is free, else it goes to the end of the queue ([no]). *)
Definition request (F : cells) (t : tid) (f : fid) (w : bool) (yes no : pc) : option (cells * pc) :=
  let c := F f in
  match lq c with
  | [] => if free c w then Some (upd F f (take c t w []), yes)
          else Some (upd F f (set_lock c (lw c) (lr c) [(t, w)]), no)
  | q => Some (upd F f (set_lock c (lw c) (lr c) (q ++ [(t, w)])), no)
  end.

(** A request that waits: it is served when it is the first of the queue and the lock
    is free. *)
Definition served (F : cells) (t : tid) (f : fid) (w : bool) (yes : pc) : option (cells * pc) :=
  let c := F f in
  match lq c with
  | (u, _) :: q => if Nat.eqb u t && free c w then Some (upd F f (take c t w q), yes) else None
  | [] => None
  end.

(** Where a call starts: async/fxproxy.rs:143-225, 256-257, 108-109;
    fxlock.rs:23-30, 37-38, 75-76. *)
Definition enter (c : call) : option pc :=
  match c with
  | Proxy ORead => Some (I_Acq MRead)
  | Proxy OTryRead => Some (I_Acq MTryRead)
  | Proxy OReadMut => Some (I_Acq MReadMut)
  | Proxy OTryReadMut => Some (I_Acq MTryReadMut)
  | Proxy OLazyInit => Some (I_Acq MLazy)
  | Proxy OWrite => Some W_Acq
  | Proxy OClear => Some C_Acq
  | Proxy OIsSet => Some L_Load
  | Proxy OClone => Some K_Acq
  | Proxy ODebug => Some D_Acq
  | LockRead => Some LR_Acq
  | LockWrite => Some LW_Acq
  | EqWith g => Some (Q_Acq g)
  | _ => None
  end.

(** Where a use of a guard starts: async/fxproxy.rs:240-248 and the Deref, DerefMut
    and Drop of tokio's guards. *)
Definition enter_guard (h : hold) (c : call) : option pc :=
  match h, c with
  | HR, Proxy GGet => Some (G_Get HR)
  | HM, Proxy GGet => Some (G_Get HM)
  | HM, Proxy (GSet v) => Some (G_Set v)
  | HW, Proxy (GStore v) => Some (S_Flag v)
  | HW, Proxy GClear => Some X_Flag
  | HR, Proxy GDrop => Some (G_Drop HR)
  | HM, Proxy GDrop => Some (G_Drop HM)
  | HW, Proxy GDrop => Some (G_Drop HW)
  | _, _ => None
  end.

(** What the caller gets when the builder failed: async/fxproxy.rs:173, 183 (unwrap),
    193, 206 (`?`), 150 (ignored). *)
Definition fail_res (m : rmode) (e : nat) : res nat nat :=
  match m with
  | MRead | MReadMut => RPanic
  | MTryRead | MTryReadMut => RErr e
  | MLazy => RUnit
  end.

(** The value of a locked field against another, as PartialEq of the type does:
    fxlock.rs:41. *)
Definition same_value (a b : option nat) : bool :=
  match a, b with
  | None, None => true
  | Some x, Some y => Nat.eqb x y
  | _, _ => false
  end.

(** A blocking_read: a panic inside the runtime ([ins]), else a request.
    async/fxproxy.rs:109, 257; fxlock.rs:38, 39, 76. *)
Definition blocking_read (F : cells) (t : tid) (ins : bool) (f : fid) (yes no : pc) : option (cells * pc) :=
  if ins then Some (F, Ret HNone RPanic) else request F t f false yes no.

(** One step of the code of a call by task [t] on field [f]; [None]: it has to wait
    (or the step is not one of the container's: see [tstep]).  Lines as in [pc]. *)
Definition pstep (F : cells) (t : tid) (ins : bool) (f : fid) (p : pc) : option (cells * pc) :=
  let c := F f in
  let go x := Some (F, x) in
  let unlock_w x := Some (upd F f (set_lock c None (lr c) (lq c)), x) in
  let unlock_r x := Some (upd F f (set_lock c (lw c) (drop_one t (lr c)) (lq c)), x) in
  match p with
  | Ret _ _ | I_Build _ => None
  | I_Acq m => request F t f true (I_Check m) (I_Wait m)
  | I_Wait m => served F t f true (I_Check m)
  | I_Check m => match value c with None => go (I_GetBld m) | Some _ => go (I_Done m) end
  | I_GetBld m => go (I_Build m)
  | I_SetVal m v => Some (upd F f (set_value c (Some v)), I_SetFlag m)
  | I_SetFlag m => Some (upd F f (set_flag c true), I_Done m)
  | I_Done m =>
      match m with
      | MRead | MTryRead => Some (upd F f (set_lock c None (t :: lr c) (lq c)), R_Map m)
      | MReadMut | MTryReadMut => go (M_Map m)
      | MLazy => unlock_w (Ret HNone RUnit)
      end
  | I_Fail m e => unlock_w (Ret HNone (fail_res m e))
  | I_Unwind m => unlock_w (Ret HNone RPanic)
  | R_Map m =>
      match value c with
      | Some v => go (Ret HR (RGuard v))
      | None => unlock_r (Ret HNone RPanic)
      end
  | M_Map m =>
      match value c with
      | Some v => go (Ret HM (RGuard v))
      | None => unlock_w (Ret HNone RPanic)
      end
  | W_Acq => request F t f true (Ret HW RUnit) W_Wait
  | W_Wait => served F t f true (Ret HW RUnit)
  | C_Acq => request F t f true C_Flag C_Wait
  | C_Wait => served F t f true C_Flag
  | C_Flag => Some (upd F f (set_flag c false), C_Take)
  | C_Take => Some (upd F f (set_value c None), C_Rel (value c))
  | C_Rel old => unlock_w (Ret HNone (RVal old))
  | L_Load => go (Ret HNone (RBool (flag c)))
  | K_Acq => blocking_read F t ins f K_Val K_Wait
  | K_Wait => served F t f false K_Val
  | K_Val => go (K_Flag (value c))
  | K_Flag ov => go (K_Rel ov (flag c))
  | K_Rel ov b => unlock_r (Ret HNone (RClone ov b true))
  | D_Acq => blocking_read F t ins f D_Val D_Wait
  | D_Wait => served F t f false D_Val
  | D_Val => go (D_Rel (value c))
  | D_Rel ov => unlock_r (Ret HNone (RVal ov))
  | Q_Acq g => blocking_read F t ins f (Q_Acq2 g) (Q_Wait g)
  | Q_Wait g => served F t f false (Q_Acq2 g)
  (* a blocking_read again; only reached outside the runtime *)
  | Q_Acq2 g => request F t g false (Q_Cmp g) (Q_Wait2 g)
  | Q_Wait2 g => served F t g false (Q_Cmp g)
  | Q_Cmp g => go (Q_Rel2 g (same_value (value c) (value (F g))))
  | Q_Rel2 g b => Some (release F t g HR, Q_Rel b)
  | Q_Rel b => Some (release F t f HR, Ret HNone (RBool b))
  | LR_Acq => request F t f false LR_Map LR_Wait
  | LR_Wait => served F t f false LR_Map
  | LW_Acq => request F t f true LW_Map LW_Wait
  | LW_Wait => served F t f true LW_Map
  (* a locked field always has a value; the None cases stand for nothing *)
  | LR_Map =>
      match value c with
      | Some v => go (Ret HR (RGuard v))
      | None => unlock_r (Ret HNone RPanic)
      end
  | LW_Map =>
      match value c with
      | Some v => go (Ret HM (RGuard v))
      | None => unlock_w (Ret HNone RPanic)
      end
  | G_Get h =>
      match value c with
      | Some v => go (Ret h (RVal (Some v)))
      | None => go (Ret h RPanic)
      end
  | G_Set v => Some (upd F f (set_value c (Some v)), Ret HM RUnit)
  | S_Flag v => Some (upd F f (set_flag c true), S_Rep v)
  | S_Rep v => Some (upd F f (set_value c (Some v)), Ret HW (RVal (value c)))
  | X_Flag => Some (upd F f (set_flag c false), X_Take)
  | X_Take => Some (upd F f (set_value c None), Ret HW (RVal (value c)))
  | G_Drop h => Some (release F t f h, Ret HNone RUnit)
  end.

(** A builder's end: async/fxproxy.rs:159. *)
Definition after_build (m : rmode) (o : outcome nat nat) : pc :=
  match o with
  | BOk v => I_SetVal m v
  | BErr e => I_Fail m e
  | BPanic => I_Unwind m
  end.

(** Where a future can be dropped: at an [.await] (154, 157, 213, 223; fxlock.rs:24,
    29).  What the dropped future owns of the field. *)
Definition at_await (p : pc) : option hold :=
  match p with
  | I_Acq _ | I_Wait _ | W_Acq | W_Wait | C_Acq | C_Wait
  | LR_Acq | LR_Wait | LW_Acq | LW_Wait => Some HNone
  | I_GetBld _ => Some HM
  | _ => None
  end.

(** What a task is doing: user code; the call [c] on [f] whose result goes to [k];
    dropping the guards of abandoned futures one by one, after which the call that was
    abandoned counts as cancelled, or the task is gone. *)
Inductive code : Type :=
| User (p : prog)
| Call (f : fid) (c : call) (p : pc) (k : res nat nat -> prog)
| Leave (gs : guards) (next : option (fid * call * (res nat nat -> prog))).

(** A call suspended at async/fxproxy.rs:159 while the builder runs, with the guards
    kept by the code that made it. *)
Record frame : Type := mkframe {
  fr_field : fid;
  fr_call : call;
  fr_mode : rmode;
  fr_cont : res nat nat -> prog;
  fr_held : guards
}.

(** A task: its current code, the guards kept by it, the calls that wait for it (the
    nesting of its futures; no code of its own). *)
Record task : Type := mktask {
  code_of : code;
  held : guards;
  stack : list frame
}.

(** The innermost future of a task that is suspended: the guards it owns and the
    fields with its request taken out of the queue.  User code can always be waiting
    for something of its own. *)
Definition innermost (F : cells) (t : tid) (c : code) : option (cells * guards) :=
  match c with
  | User _ => Some (F, [])
  | Call f _ p _ =>
      match at_await p with
      | Some h => Some (upd F f (set_lock (F f) (lw (F f)) (lr (F f)) (unqueue t (lq (F f)))),
                        keep f h [])
      | None => None
      end
  | Leave _ _ => None
  end.

(** The guards that go with the [n] innermost frames and the frame below; and with
    all.  A suspended call owns the exclusive lock of its field
    (async/fxproxy.rs:154-159). *)
Fixpoint unwind (n : nat) (st : list frame) : option (guards * frame * list frame) :=
  match st with
  | [] => None
  | fr :: st' =>
      match n with
      | 0 => Some ([(fr_field fr, HM)], fr, st')
      | S n' =>
          match unwind n' st' with
          | Some (gs, fr', st'') => Some ((fr_field fr, HM) :: fr_held fr ++ gs, fr', st'')
          | None => None
          end
      end
  end.
Fixpoint unwind_all (st : list frame) : guards :=
  match st with
  | [] => []
  | fr :: st' => (fr_field fr, HM) :: fr_held fr ++ unwind_all st'
  end.

(** Tasks that have nothing left to do. *)
Definition finished (th : task) : bool :=
  match code_of th, held th, stack th with
  | User (PEnd _), [], [] => true
  | _, _, _ => false
  end.

Section Run.
  (** Which tasks are inside a tokio runtime. *)
  Variable inside : tid -> bool.
  (** The builders; the number is picked by the schedule. *)
  Variable builder : fid -> nat -> prog.

  (** Task [t] goes on: user code makes a call, a call makes a step ([pstep]), a call
      returns, the builder is invoked (async/fxproxy.rs:159, 45-47, 76-78) or comes
      back; guards left at the end of a piece of user code, or of futures that were
      dropped, are dropped one by one. *)
  Definition tstep (F : cells) (t : tid) (n : nat) (th : task)
    : option (cells * task * list tevent) :=
    match code_of th with
    | User (PEnd o) =>
        match held th with
        | (f, h) :: rest => Some (release F t f h, mktask (User (PEnd o)) rest (stack th), [])
        | [] =>
            match stack th with
            | [] => None
            | fr :: st =>
                Some (F, mktask (Call (fr_field fr) (fr_call fr) (after_build (fr_mode fr) o) (fr_cont fr))
                           (fr_held fr) st,
                      [TEnd t (fr_field fr) o])
            end
        end
    | User (PCall f c k) =>
        if through_guard c then
          match take_guard f (held th) with
          | Some (h, l) =>
              match enter_guard h c with
              | Some p => Some (F, mktask (Call f c p k) l (stack th), [])
              | None => None
              end
          | None => None
          end
        else
          match enter c with
          | Some p => Some (F, mktask (Call f c p k) (held th) (stack th), [])
          | None => None
          end
    | Call f c p k =>
        match p with
        | Ret h r => Some (F, mktask (User (k r)) (keep f h (held th)) (stack th), [TRet t f c r])
        | I_Build m =>
            Some (F, mktask (User (builder f n)) [] (mkframe f c m k (held th) :: stack th),
                  [TStart t f])
        | _ =>
            match pstep F t (inside t) f p with
            | Some (F', p') => Some (F', mktask (Call f c p' k) (held th) (stack th), [])
            | None => None
            end
        end
    | Leave ((f, h) :: gs) next =>
        Some (release F t f h, mktask (Leave gs next) (held th) (stack th), [])
    | Leave [] (Some (f, c, k)) =>
        Some (F, mktask (User (k RCancelled)) (held th) (stack th), [TRet t f c RCancelled])
    | Leave [] None => Some (F, mktask (User (PEnd BPanic)) (held th) (stack th), [])
    end.

  (** The future of the call made by the [n]-th frame is dropped, and with it
      everything above. *)
  Definition drop_frame (F : cells) (t : tid) (th : task) (n : nat) : option (cells * task) :=
    match innermost F t (code_of th), unwind n (stack th) with
    | Some (F', gs), Some (gs', fr, st) =>
        Some (F', mktask (Leave (gs ++ held th ++ gs') (Some (fr_field fr, fr_call fr, fr_cont fr)))
                    (fr_held fr) st)
    | _, _ => None
    end.

  (** The future of the innermost call is dropped. *)
  Definition drop_call (F : cells) (t : tid) (th : task) : option (cells * task) :=
    match code_of th with
    | Call f c _ k =>
        match innermost F t (code_of th) with
        | Some (F', gs) => Some (F', mktask (Leave gs (Some (f, c, k))) (held th) (stack th))
        | None => None
        end
    | _ => None
    end.

  (** What a schedule does to task [t]. *)
  Definition act_step (F : cells) (t : tid) (a : act) (th : task)
    : option (cells * task * list tevent) :=
    let quietly x := match x with Some (F', th') => Some (F', th', @nil tevent) | None => None end in
    match a with
    | Go n => tstep F t n th
    | DropOwn =>
        quietly (match length (stack th) with
                 | 0 => drop_call F t th
                 | S n => drop_frame F t th n
                 end)
    | DropIn 0 => match stack th with [] => None | _ => quietly (drop_call F t th) end
    | DropIn (S i) => if S i <? length (stack th) then quietly (drop_frame F t th i) else None
    | Abort =>
        if finished th then None
        else match innermost F t (code_of th) with
        | Some (F', gs) =>
            Some (F', mktask (Leave (gs ++ held th ++ unwind_all (stack th)) None) [] [], [])
        | None => None
        end
    end.

  (** The whole system: fields and tasks. *)
  Record sys : Type := mksys { fields : cells; tasks : list task }.

  (** Replaces one task: bookkeeping. *)
  Fixpoint set_nth {A : Type} (n : nat) (l : list A) (x : A) : list A :=
    match l, n with
    | [], _ => []
    | _ :: l', 0 => x :: l'
    | y :: l', S n' => y :: set_nth n' l' x
    end.

  (** One action of a schedule. *)
  Definition step (s : sys) (a : tid * act) : option (sys * list tevent) :=
    match nth_error (tasks s) (fst a) with
    | Some th =>
        match act_step (fields s) (fst a) (snd a) th with
        | Some (F', th', ev) => Some (mksys F' (set_nth (fst a) (tasks s) th'), ev)
        | None => None
        end
    | None => None
    end.

  (** A schedule run from a state; [None]: it asks for an impossible step. *)
  Fixpoint run (s : sys) (l : list (tid * act)) : option (sys * list tevent) :=
    match l with
    | [] => Some (s, [])
    | a :: l' =>
        match step s a with
        | Some (s1, e1) =>
            match run s1 l' with
            | Some (s2, e2) => Some (s2, e1 ++ e2)
            | None => None
            end
        | None => None
        end
    end.
End Run.

(** Fields right after construction, with or without a value
    (async/fxproxy.rs:123-129, fxlock.rs:13-15), and tasks about to run their
    code. *)
Definition new_cells (v0 : fid -> option nat) : cells :=
  fun f => mkcell (v0 f) (is_some (v0 f)) None [] [].

Definition start (v0 : fid -> option nat) (ps : list prog) : sys :=
  mksys (new_cells v0) (map (fun p => mktask (User p) [] []) ps).
