(** Model of the sync lazy container: /repo/fieldx/src/sync/fxproxy.rs.

    An execution is a sequence of actions.  Each action is one atomic step of one
    activity: a call by user code, one step of the code of the container (one lock
    transition, one load or store), or the end of a run of the user's builder.
    Which activity moves next, and how a builder run ends, is up to the schedule.

    Simplifications (whole file):
    - memory is sequentially consistent (the source uses SeqCst except for the
      Release store at line 233, which is made under the write lock); WeakSyncModel.v
      is the same code without this;
    - parking_lot's RwLock is modelled by its contract: shared, upgradable and
      exclusive ownership.  The lock of the model is more permissive than the real
      one (no fairness, no queue), so it has more schedules;
    - [builder] (its own RwLock, only ever read after construction) is a boolean
      telling if a builder is present. *)
From Coq Require Import List Bool Arith.
From Verif Require Import ProxyTypes.
Import ListNotations.

Section Model.
  Context {V E : Type}.

  (** The five entry points that go through read_or_init:
      sync/fxproxy.rs:134-202. *)
  Inductive rmode : Type := MRead | MTryRead | MReadMut | MTryReadMut | MLazy.

  (** Program counters: where an activity is in the source.  Line numbers are those
      of sync/fxproxy.rs. *)
  Inductive pc : Type :=
  | Hold (h : hold)              (* in user code, keeping guard [h] *)
  | Ret (h : hold) (r : res V E) (* about to return [r], keeping [h] *)
  | Drop (h : hold)              (* user drops the guard *)
  (* read_or_init, 138-161 *)
  | RI_Acq (m : rmode)           (* 142: waiting for upgradable_read *)
  | RI_Check (m : rmode)         (* 143: guard.is_none() *)
  | RI_Upg (m : rmode)           (* 144: waiting for upgrade *)
  | RI_Recheck (m : rmode)       (* 146: wguard.is_none() *)
  | RI_GetBld (m : rmode)        (* 148: match *self.builder.read() *)
  | RI_Build (m : rmode)         (* 150: invoke(owner) is running *)
  | RI_SetVal (m : rmode) (v : V)(* 150: *wguard = Some(v) *)
  | RI_SetFlag (m : rmode)       (* 151: is_set.store(true) *)
  | RI_Down (m : rmode)          (* 156: downgrade_to_upgradable *)
  | RI_Done (m : rmode)          (* 160: Ok(guard) handed to the caller *)
  | RI_Fail (m : rmode) (e : E)  (* 150: `?` on Err, wguard dropped on the way out *)
  | RI_Unwind (m : rmode)        (* panic while holding wguard *)
  (* read / try_read, 166-172, 186-191 *)
  | R_Map (m : rmode)            (* 169/189: data.as_ref().unwrap() *)
  (* read_mut / try_read_mut, 176-181, 196-201 *)
  | M_Upg (m : rmode)            (* 178/198: waiting for upgrade *)
  | M_Map (m : rmode)            (* 179/199: data.as_mut().unwrap() *)
  (* write, 204-206 *)
  | W_Acq                        (* 205: waiting for write *)
  (* clear, 214-217, 208-211 *)
  | C_Acq                        (* 215: waiting for write *)
  | C_Flag                       (* 209: is_set.store(false) *)
  | C_Take                       (* 210: wguard.take() *)
  | C_Rel (old : option V)       (* end of 216: wguard dropped *)
  (* is_set, 127-130 *)
  | L_Load                       (* 129: load *)
  (* clone, 248-256 *)
  | K_Acq                        (* 249: waiting for value.read() *)
  | K_Val                        (* 252: vguard.as_ref().cloned() *)
  | K_Flag (ov : option V)       (* 253: self.is_set() *)
  | K_Rel (ov : option V) (b : bool) (* end of 256: vguard dropped *)
  (* Debug::fmt, 94-100 *)
  | D_Acq                        (* 95 *)
  | D_Val                        (* 98 *)
  | D_Rel (ov : option V)
  (* through guards *)
  | G_Get (h : hold)             (* Deref of a mapped guard *)
  | G_Set (v : V)                (* DerefMut of a mapped write guard *)
  | S_Flag (v : V)               (* 233: is_set.store(true) *)
  | S_Rep (v : V)                (* 234: lock.replace(value) *)
  | X_Flag                       (* 239 -> 209 *)
  | X_Take.                      (* 239 -> 210 *)

  (** sync/fxproxy.rs:68-75, with the RwLock around [value] made explicit: who owns
      it exclusively, who owns it upgradably, who shares it. *)
  Record st : Type := mkst {
    value : option V;
    flag : bool;                 (* is_set *)
    bset : bool;                 (* builder is Some *)
    lw : option aid;
    lu : option aid;
    lr : list aid;
    pcs : aid -> pc
  }.

  (** sync/fxproxy.rs:108-114 (new_default). *)
  Definition init (ov : option V) : st :=
    mkst ov (is_some ov) true None None [] (fun _ => Hold HNone).

  (** Actions of a schedule. *)
  Inductive action : Type :=
  | ACall (a : aid) (o : op V)      (* user code makes a call *)
  | AStep (a : aid)                 (* the container's code makes one step *)
  | ABuilt (a : aid) (b : outcome V E). (* the running builder of [a] ends *)

  Definition upd (f : aid -> pc) (a : aid) (p : pc) : aid -> pc :=
    fun b => if Nat.eqb b a then p else f b.

  Definition set_pc (s : st) (a : aid) (p : pc) : st :=
    mkst (value s) (flag s) (bset s) (lw s) (lu s) (lr s) (upd (pcs s) a p).

  Definition set_value (s : st) (ov : option V) : st :=
    mkst ov (flag s) (bset s) (lw s) (lu s) (lr s) (pcs s).

  Definition set_flag (s : st) (b : bool) : st :=
    mkst (value s) b (bset s) (lw s) (lu s) (lr s) (pcs s).

  Definition set_lock (s : st) (w u : option aid) (r : list aid) : st :=
    mkst (value s) (flag s) (bset s) w u r (pcs s).

  Definition drop_reader (a : aid) (l : list aid) : list aid :=
    filter (fun b => negb (Nat.eqb b a)) l.

  (** Where a call starts: the first program point of the method. *)
  Definition enter (h : hold) (o : op V) : option pc :=
    match h, o with
    | HNone, ORead => Some (RI_Acq MRead)          (* 166-168 *)
    | HNone, OTryRead => Some (RI_Acq MTryRead)    (* 186-188 *)
    | HNone, OReadMut => Some (RI_Acq MReadMut)    (* 176-178 *)
    | HNone, OTryReadMut => Some (RI_Acq MTryReadMut) (* 196-198 *)
    | HNone, OLazyInit => Some (RI_Acq MLazy)      (* 134-136 *)
    | HNone, OWrite => Some W_Acq                  (* 204-206 *)
    | HNone, OClear => Some C_Acq                  (* 214-215 *)
    | HNone, OIsSet => Some L_Load                 (* 128-130 *)
    | HNone, OClone => Some K_Acq                  (* 248-249 *)
    | HNone, ODebug => Some D_Acq                  (* 94-95 *)
    | HR, GGet => Some (G_Get HR)
    | HM, GGet => Some (G_Get HM)
    | HM, GSet v => Some (G_Set v)
    | HW, GStore v => Some (S_Flag v)              (* 232-233 *)
    | HW, GClear => Some X_Flag                    (* 238-239 *)
    | HR, GDrop => Some (Drop HR)
    | HM, GDrop => Some (Drop HM)
    | HW, GDrop => Some (Drop HW)
    | _, _ => None
    end.

  (** What the caller gets when the builder failed: read and read_mut unwrap the
      Err (168, 178), the try_ forms pass it on (188, 198), lazy_init ignores it
      (135). *)
  Definition fail_res (m : rmode) (e : E) : res V E :=
    match m with
    | MRead | MReadMut => RPanic
    | MTryRead | MTryReadMut => RErr e
    | MLazy => RUnit
    end.

  (** One step of the container's code for activity [a]; [None]: it has to wait (or
      is not in the container's code). *)
  Definition step_code (s : st) (a : aid) : option (st * list (event V E)) :=
    let goto p := Some (set_pc s a p, []) in
    match pcs s a with
    | Hold _ => None
    | RI_Build _ => None
    | Ret h r => Some (set_pc s a (Hold h), [EvRet a r])
    (* user drops a guard *)
    | Drop HR => Some (set_pc (set_lock s (lw s) (lu s) (drop_reader a (lr s))) a (Ret HNone RUnit), [])
    | Drop (HM | HW) => Some (set_pc (set_lock s None (lu s) (lr s)) a (Ret HNone RUnit), [])
    | Drop HNone => None
    (* 142 *)
    | RI_Acq m =>
        match lw s, lu s with
        | None, None => Some (set_pc (set_lock s None (Some a) (lr s)) a (RI_Check m), [])
        | _, _ => None
        end
    (* 143 *)
    | RI_Check m =>
        match value s with
        | None => goto (RI_Upg m)
        | Some _ => goto (RI_Done m)
        end
    (* 144 *)
    | RI_Upg m =>
        match lr s with
        | [] => Some (set_pc (set_lock s (Some a) None []) a (RI_Recheck m), [])
        | _ :: _ => None
        end
    (* 146 *)
    | RI_Recheck m =>
        match value s with
        | None => goto (RI_GetBld m)
        | Some _ => goto (RI_Down m)
        end
    (* 148, 149, 153 *)
    | RI_GetBld m =>
        if bset s then Some (set_pc s a (RI_Build m), [EvBuildStart a])
        else goto (RI_Unwind m)
    (* 150 *)
    | RI_SetVal m v => Some (set_pc (set_value s (Some v)) a (RI_SetFlag m), [])
    (* 151 *)
    | RI_SetFlag m => Some (set_pc (set_flag s true) a (RI_Down m), [])
    (* 156 *)
    | RI_Down m => Some (set_pc (set_lock s None (Some a) (lr s)) a (RI_Done m), [])
    (* 160 and the callers *)
    | RI_Done m =>
        match m with
        | MRead | MTryRead => (* 168, 188: downgrade *)
            Some (set_pc (set_lock s (lw s) None (a :: lr s)) a (R_Map m), [])
        | MReadMut | MTryReadMut => (* 178, 198: upgrade *)
            goto (M_Upg m)
        | MLazy => (* 135: the guard is dropped at once *)
            Some (set_pc (set_lock s (lw s) None (lr s)) a (Ret HNone RUnit), [])
        end
    (* `?` at 150: wguard is dropped, the caller gets the error *)
    | RI_Fail m e => Some (set_pc (set_lock s None (lu s) (lr s)) a (Ret HNone (fail_res m e)), [])
    | RI_Unwind m => Some (set_pc (set_lock s None (lu s) (lr s)) a (Ret HNone RPanic), [])
    (* 169, 189; a panic here releases the read lock *)
    | R_Map m =>
        match value s with
        | Some v => goto (Ret HR (RGuard v))
        | None => Some (set_pc (set_lock s (lw s) (lu s) (drop_reader a (lr s))) a (Ret HNone RPanic), [])
        end
    (* 178, 198 *)
    | M_Upg m =>
        match lr s with
        | [] => Some (set_pc (set_lock s (Some a) None []) a (M_Map m), [])
        | _ :: _ => None
        end
    (* 179, 199; a panic here releases the write lock *)
    | M_Map m =>
        match value s with
        | Some v => goto (Ret HM (RGuard v))
        | None => Some (set_pc (set_lock s None (lu s) (lr s)) a (Ret HNone RPanic), [])
        end
    (* 205 *)
    | W_Acq =>
        match lw s, lu s, lr s with
        | None, None, [] => Some (set_pc (set_lock s (Some a) None []) a (Ret HW RUnit), [])
        | _, _, _ => None
        end
    (* 215 *)
    | C_Acq =>
        match lw s, lu s, lr s with
        | None, None, [] => Some (set_pc (set_lock s (Some a) None []) a C_Flag, [])
        | _, _, _ => None
        end
    (* 209, 210 *)
    | C_Flag => Some (set_pc (set_flag s false) a C_Take, [])
    | C_Take => Some (set_pc (set_value s None) a (C_Rel (value s)), [])
    | C_Rel old => Some (set_pc (set_lock s None (lu s) (lr s)) a (Ret HNone (RVal old)), [])
    (* 129 *)
    | L_Load => goto (Ret HNone (RBool (flag s)))
    (* 249 - 256 *)
    | K_Acq =>
        match lw s with
        | None => Some (set_pc (set_lock s None (lu s) (a :: lr s)) a K_Val, [])
        | Some _ => None
        end
    | K_Val => goto (K_Flag (value s))
    | K_Flag ov => goto (K_Rel ov (flag s))
    | K_Rel ov b =>
        Some (set_pc (set_lock s (lw s) (lu s) (drop_reader a (lr s))) a
                (Ret HNone (RClone ov b (bset s))), [])
    (* 95 - 99 *)
    | D_Acq =>
        match lw s with
        | None => Some (set_pc (set_lock s None (lu s) (a :: lr s)) a D_Val, [])
        | Some _ => None
        end
    | D_Val => goto (D_Rel (value s))
    | D_Rel ov =>
        Some (set_pc (set_lock s (lw s) (lu s) (drop_reader a (lr s))) a (Ret HNone (RVal ov)), [])
    (* Deref of the mapped guards; [RPanic] stands for "nothing behind the guard" *)
    | G_Get h =>
        match value s with
        | Some v => goto (Ret h (RVal (Some v)))
        | None => goto (Ret h RPanic)
        end
    (* assignment through the mapped write guard *)
    | G_Set v => Some (set_pc (set_value s (Some v)) a (Ret HM RUnit), [])
    (* 233, 234 *)
    | S_Flag v => Some (set_pc (set_flag s true) a (S_Rep v), [])
    | S_Rep v => Some (set_pc (set_value s (Some v)) a (Ret HW (RVal (value s))), [])
    (* 239 -> 209, 210 *)
    | X_Flag => Some (set_pc (set_flag s false) a X_Take, [])
    | X_Take => Some (set_pc (set_value s None) a (Ret HW (RVal (value s))), [])
    end.

  (** One action.  sync/fxproxy.rs:150 for [ABuilt]: Ok goes on to the assignment,
      Err leaves through `?`, a panic unwinds. *)
  Definition step (s : st) (x : action) : option (st * list (event V E)) :=
    match x with
    | ACall a o =>
        match pcs s a with
        | Hold h =>
            match enter h o with
            | Some p => Some (set_pc s a p, [EvCall a o])
            | None => None
            end
        | _ => None
        end
    | AStep a => step_code s a
    | ABuilt a b =>
        match pcs s a with
        | RI_Build m =>
            Some (set_pc s a (match b with
                              | BOk v => RI_SetVal m v
                              | BErr e => RI_Fail m e
                              | BPanic => RI_Unwind m
                              end), [EvBuildEnd a b])
        | _ => None
        end
    end.

  (** A schedule, run from a state: the state reached and the events seen.
      [None]: the schedule asks for an impossible step. *)
  Fixpoint run (s : st) (l : list action) : option (st * list (event V E)) :=
    match l with
    | [] => Some (s, [])
    | x :: l' =>
        match step s x with
        | Some (s1, t1) =>
            match run s1 l' with
            | Some (s2, t2) => Some (s2, t1 ++ t2)
            | None => None
            end
        | None => None
        end
    end.
End Model.

Arguments st : clear implicits.
Arguments pc : clear implicits.
Arguments action : clear implicits.
