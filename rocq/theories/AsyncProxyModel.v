(** Model of the async lazy container: /repo/fieldx/src/async/fxproxy.rs.

    Same shape as SyncProxyModel.v: an execution is a sequence of actions, each one
    atomic step of one activity.  New here: a call that waits at an [.await] can be
    abandoned (its future is dropped), which is action [ACancel].

    Simplifications (whole file):
    - memory is sequentially consistent (the source uses SeqCst except for the
      Release store at line 241, which is made under the write lock); WeakAsyncModel.v
      is the same code without this;
    - tokio's RwLock is modelled by its contract: shared and exclusive ownership,
      without its queue, so the model has more schedules than the code;
    - [builder] (its own RwLock, only ever read after construction) is a boolean
      telling if a builder is present; its [read().await] (line 157) never has to wait
      for another activity but can be a point where the future is dropped;
    - Debug and Clone use blocking_read, which panics inside a runtime; the model
      has only calls from outside. *)
From Coq Require Import List Bool Arith.
From Verif Require Import ProxyTypes.
Import ListNotations.

Section Model.
  Context {V E : Type}.

  (** The five entry points that go through read_or_init:
      async/fxproxy.rs:149-209. *)
  Inductive rmode : Type := MRead | MTryRead | MReadMut | MTryReadMut | MLazy.

  (** Program counters.  Line numbers are those of async/fxproxy.rs. *)
  Inductive pc : Type :=
  | Hold (h : hold)              (* in user code, keeping guard [h] *)
  | Ret (h : hold) (r : res V E) (* about to return [r], keeping [h] *)
  | Drop (h : hold)              (* user drops the guard *)
  (* read_or_init, 153-166 *)
  | RI_Acq (m : rmode)           (* 154: waiting for write().await *)
  | RI_Check (m : rmode)         (* 155: guard.is_none() *)
  | RI_GetBld (m : rmode)        (* 157: match *self.builder.read().await *)
  | RI_Build (m : rmode)         (* 159: invoke(owner).await is running *)
  | RI_SetVal (m : rmode) (v : V)(* 159: *guard = Some(v) *)
  | RI_SetFlag (m : rmode)       (* 160: is_set.store(true) *)
  | RI_Done (m : rmode)          (* 165: Ok(guard) handed to the caller *)
  | RI_Fail (m : rmode) (e : E)  (* 159: `?` on Err, guard dropped on the way out *)
  | RI_Unwind (m : rmode)        (* panic while holding the guard *)
  | RI_Drop (m : rmode)          (* the future is dropped while it owns the guard *)
  (* read / try_read, 171-176, 191-196 *)
  | R_Map (m : rmode)            (* 174/194: data.as_ref().unwrap() *)
  (* read_mut / try_read_mut, 181-186, 201-209 *)
  | M_Map (m : rmode)            (* 184/207: data.as_mut().unwrap() *)
  (* write, 212-214 *)
  | W_Acq                        (* 213: waiting for write().await *)
  (* clear, 222-225, 216-219 *)
  | C_Acq                        (* 223: waiting for write().await *)
  | C_Flag                       (* 217: is_set.store(false) *)
  | C_Take                       (* 218: wguard.take() *)
  | C_Rel (old : option V)       (* end of 224: wguard dropped *)
  (* is_set, 143-145 *)
  | L_Load                       (* 144: load *)
  (* clone, 256-264 *)
  | K_Acq                        (* 257: waiting in value.blocking_read() *)
  | K_Val                        (* 260: vguard.as_ref().cloned() *)
  | K_Flag (ov : option V)       (* 261: self.is_set() *)
  | K_Rel (ov : option V) (b : bool) (* end of 264: vguard dropped *)
  (* Debug::fmt, 108-114 *)
  | D_Acq                        (* 109 *)
  | D_Val                        (* 112 *)
  | D_Rel (ov : option V)
  (* through guards *)
  | G_Get (h : hold)             (* Deref of a mapped guard *)
  | G_Set (v : V)                (* DerefMut of a mapped write guard *)
  | S_Flag (v : V)               (* 241: is_set.store(true) *)
  | S_Rep (v : V)                (* 242: lock.replace(value) *)
  | X_Flag                       (* 247 -> 217 *)
  | X_Take.                      (* 247 -> 218 *)

  (** async/fxproxy.rs:82-89, with the RwLock around [value] made explicit: who owns
      it exclusively, who shares it. *)
  Record st : Type := mkst {
    value : option V;
    flag : bool;                 (* is_set *)
    bset : bool;                 (* builder is Some *)
    lw : option aid;
    lr : list aid;
    pcs : aid -> pc
  }.

  (** async/fxproxy.rs:123-129 (new_default). *)
  Definition init (ov : option V) : st :=
    mkst ov (is_some ov) true None [] (fun _ => Hold HNone).

  (** Actions of a schedule. *)
  Inductive action : Type :=
  | ACall (a : aid) (o : op V)      (* user code makes a call *)
  | AStep (a : aid)                 (* the container's code makes one step *)
  | ABuilt (a : aid) (b : outcome V E) (* the running builder of [a] ends *)
  | ACancel (a : aid).              (* the future of [a]'s call is dropped *)

  Definition upd (f : aid -> pc) (a : aid) (p : pc) : aid -> pc :=
    fun b => if Nat.eqb b a then p else f b.

  Definition set_pc (s : st) (a : aid) (p : pc) : st :=
    mkst (value s) (flag s) (bset s) (lw s) (lr s) (upd (pcs s) a p).

  Definition set_value (s : st) (ov : option V) : st :=
    mkst ov (flag s) (bset s) (lw s) (lr s) (pcs s).

  Definition set_flag (s : st) (b : bool) : st :=
    mkst (value s) b (bset s) (lw s) (lr s) (pcs s).

  Definition set_lock (s : st) (w : option aid) (r : list aid) : st :=
    mkst (value s) (flag s) (bset s) w r (pcs s).

  Definition drop_reader (a : aid) (l : list aid) : list aid :=
    filter (fun b => negb (Nat.eqb b a)) l.

  (** Where a call starts: the first program point of the method. *)
  Definition enter (h : hold) (o : op V) : option pc :=
    match h, o with
    | HNone, ORead => Some (RI_Acq MRead)          (* 171-173 *)
    | HNone, OTryRead => Some (RI_Acq MTryRead)    (* 191-193 *)
    | HNone, OReadMut => Some (RI_Acq MReadMut)    (* 181-183 *)
    | HNone, OTryReadMut => Some (RI_Acq MTryReadMut) (* 201-206 *)
    | HNone, OLazyInit => Some (RI_Acq MLazy)      (* 149-151 *)
    | HNone, OWrite => Some W_Acq                  (* 212-213 *)
    | HNone, OClear => Some C_Acq                  (* 222-223 *)
    | HNone, OIsSet => Some L_Load                 (* 143-145 *)
    | HNone, OClone => Some K_Acq                  (* 256-257 *)
    | HNone, ODebug => Some D_Acq                  (* 108-109 *)
    | HR, GGet => Some (G_Get HR)
    | HM, GGet => Some (G_Get HM)
    | HM, GSet v => Some (G_Set v)
    | HW, GStore v => Some (S_Flag v)              (* 240-241 *)
    | HW, GClear => Some X_Flag                    (* 246-247 *)
    | HR, GDrop => Some (Drop HR)
    | HM, GDrop => Some (Drop HM)
    | HW, GDrop => Some (Drop HW)
    | _, _ => None
    end.

  (** What the caller gets when the builder failed: read and read_mut unwrap the
      Err (173, 183), the try_ forms pass it on (193, 206), lazy_init ignores it
      (150). *)
  Definition fail_res (m : rmode) (e : E) : res V E :=
    match m with
    | MRead | MReadMut => RPanic
    | MTryRead | MTryReadMut => RErr e
    | MLazy => RUnit
    end.

  (** One step of the container's code for activity [a]; [None]: it has to wait (or
      is not in the container's code). *)
  Definition step_code (s : st) (a : aid) : option (st * list (event V E)) :=
    let goto p := Some (set_pc s a p, []) in
    match pcs s a with
    | Hold _ => None
    | RI_Build _ => None
    | Ret h r => Some (set_pc s a (Hold h), [EvRet a r])
    (* user drops a guard *)
    | Drop HR => Some (set_pc (set_lock s (lw s) (drop_reader a (lr s))) a (Ret HNone RUnit), [])
    | Drop (HM | HW) => Some (set_pc (set_lock s None (lr s)) a (Ret HNone RUnit), [])
    | Drop HNone => None
    (* 154 *)
    | RI_Acq m =>
        match lw s, lr s with
        | None, [] => Some (set_pc (set_lock s (Some a) []) a (RI_Check m), [])
        | _, _ => None
        end
    (* 155 *)
    | RI_Check m =>
        match value s with
        | None => goto (RI_GetBld m)
        | Some _ => goto (RI_Done m)
        end
    (* 157, 158, 162 *)
    | RI_GetBld m =>
        if bset s then Some (set_pc s a (RI_Build m), [EvBuildStart a])
        else goto (RI_Unwind m)
    (* 159 *)
    | RI_SetVal m v => Some (set_pc (set_value s (Some v)) a (RI_SetFlag m), [])
    (* 160 *)
    | RI_SetFlag m => Some (set_pc (set_flag s true) a (RI_Done m), [])
    (* 165 and the callers *)
    | RI_Done m =>
        match m with
        | MRead | MTryRead => (* 173, 193: downgrade *)
            Some (set_pc (set_lock s None (a :: lr s)) a (R_Map m), [])
        | MReadMut | MTryReadMut => goto (M_Map m)
        | MLazy => (* 150: the guard is dropped at once *)
            Some (set_pc (set_lock s None (lr s)) a (Ret HNone RUnit), [])
        end
    (* `?` at 159: the guard is dropped, the caller gets the error *)
    | RI_Fail m e => Some (set_pc (set_lock s None (lr s)) a (Ret HNone (fail_res m e)), [])
    | RI_Unwind m => Some (set_pc (set_lock s None (lr s)) a (Ret HNone RPanic), [])
    (* dropping the future drops the guard *)
    | RI_Drop m => Some (set_pc (set_lock s None (lr s)) a (Ret HNone RCancelled), [])
    (* 174, 194; a panic here releases the read lock *)
    | R_Map m =>
        match value s with
        | Some v => goto (Ret HR (RGuard v))
        | None => Some (set_pc (set_lock s (lw s) (drop_reader a (lr s))) a (Ret HNone RPanic), [])
        end
    (* 184, 207; a panic here releases the write lock *)
    | M_Map m =>
        match value s with
        | Some v => goto (Ret HM (RGuard v))
        | None => Some (set_pc (set_lock s None (lr s)) a (Ret HNone RPanic), [])
        end
    (* 213 *)
    | W_Acq =>
        match lw s, lr s with
        | None, [] => Some (set_pc (set_lock s (Some a) []) a (Ret HW RUnit), [])
        | _, _ => None
        end
    (* 223 *)
    | C_Acq =>
        match lw s, lr s with
        | None, [] => Some (set_pc (set_lock s (Some a) []) a C_Flag, [])
        | _, _ => None
        end
    (* 217, 218 *)
    | C_Flag => Some (set_pc (set_flag s false) a C_Take, [])
    | C_Take => Some (set_pc (set_value s None) a (C_Rel (value s)), [])
    | C_Rel old => Some (set_pc (set_lock s None (lr s)) a (Ret HNone (RVal old)), [])
    (* 144 *)
    | L_Load => goto (Ret HNone (RBool (flag s)))
    (* 257 - 264 *)
    | K_Acq =>
        match lw s with
        | None => Some (set_pc (set_lock s None (a :: lr s)) a K_Val, [])
        | Some _ => None
        end
    | K_Val => goto (K_Flag (value s))
    | K_Flag ov => goto (K_Rel ov (flag s))
    | K_Rel ov b =>
        Some (set_pc (set_lock s (lw s) (drop_reader a (lr s))) a
                (Ret HNone (RClone ov b (bset s))), [])
    (* 109 - 113 *)
    | D_Acq =>
        match lw s with
        | None => Some (set_pc (set_lock s None (a :: lr s)) a D_Val, [])
        | Some _ => None
        end
    | D_Val => goto (D_Rel (value s))
    | D_Rel ov =>
        Some (set_pc (set_lock s (lw s) (drop_reader a (lr s))) a (Ret HNone (RVal ov)), [])
    (* Deref of the mapped guards; [RPanic] stands for "nothing behind the guard" *)
    | G_Get h =>
        match value s with
        | Some v => goto (Ret h (RVal (Some v)))
        | None => goto (Ret h RPanic)
        end
    (* assignment through the mapped write guard *)
    | G_Set v => Some (set_pc (set_value s (Some v)) a (Ret HM RUnit), [])
    (* 241, 242 *)
    | S_Flag v => Some (set_pc (set_flag s true) a (S_Rep v), [])
    | S_Rep v => Some (set_pc (set_value s (Some v)) a (Ret HW (RVal (value s))), [])
    (* 247 -> 217, 218 *)
    | X_Flag => Some (set_pc (set_flag s false) a X_Take, [])
    | X_Take => Some (set_pc (set_value s None) a (Ret HW (RVal (value s))), [])
    end.

  (** What dropping the future of a call does: possible only where it waits at an
      [.await]: 154, 213 and 223 (the lock is not owned yet), 157 and 159 (it is:
      dropping the future drops the builder's future, then the guard). *)
  Definition cancel (p : pc) : option pc :=
    match p with
    | RI_Acq _ | W_Acq | C_Acq => Some (Ret HNone RCancelled)
    | RI_GetBld m | RI_Build m => Some (RI_Drop m)
    | _ => None
    end.

  (** One action.  async/fxproxy.rs:159 for [ABuilt]: Ok goes on to the assignment,
      Err leaves through `?`, a panic unwinds. *)
  Definition step (s : st) (x : action) : option (st * list (event V E)) :=
    match x with
    | ACall a o =>
        match pcs s a with
        | Hold h =>
            match enter h o with
            | Some p => Some (set_pc s a p, [EvCall a o])
            | None => None
            end
        | _ => None
        end
    | AStep a => step_code s a
    | ABuilt a b =>
        match pcs s a with
        | RI_Build m =>
            Some (set_pc s a (match b with
                              | BOk v => RI_SetVal m v
                              | BErr e => RI_Fail m e
                              | BPanic => RI_Unwind m
                              end), [EvBuildEnd a b])
        | _ => None
        end
    | ACancel a =>
        match cancel (pcs s a) with
        | Some p => Some (set_pc s a p, [])
        | None => None
        end
    end.

  (** A schedule, run from a state: the state reached and the events seen.
      [None]: the schedule asks for an impossible step. *)
  Fixpoint run (s : st) (l : list action) : option (st * list (event V E)) :=
    match l with
    | [] => Some (s, [])
    | x :: l' =>
        match step s x with
        | Some (s1, t1) =>
            match run s1 l' with
            | Some (s2, t2) => Some (s2, t1 ++ t2)
            | None => None
            end
        | None => None
        end
    end.
End Model.

Arguments st : clear implicits.
Arguments pc : clear implicits.
Arguments action : clear implicits.
