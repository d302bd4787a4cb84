(** The sync lazy container on the memory of WeakMem.v: /repo/fieldx/src/sync/fxproxy.rs.
    The code is that of SyncProxyModel.v; only loads and stores are different. *)
From Coq Require Import List Bool Arith.
From Verif Require Import ProxyTypes SyncProxyModel WeakMem.
Import ListNotations.

Section Weak.
  Context {V E : Type}.
  (** The state: [core] has the lock and the program points of SyncProxyModel.v, its
      [value] and [flag] are what the last step had at hand.  sync/fxproxy.rs:68-75. *)
  Record wst : Type := mkw {
    core : st V E;
    flags : place bool;
    values : place (option V);
    knows : aid -> list nat;
    kw : list nat;
    kr : list nat;
    next : nat;
    log : list (nat * bool);      (* accesses to the value; true: a write *)
    racy : bool
  }.
  (** sync/fxproxy.rs:108-114; everybody knows the container was made. *)
  Definition winit (ov : option V) : wst :=
    mkw (init ov) [(0, is_some ov)] [(0, ov)] (fun _ => [0]) [0] [0] 1 [] false.
  (** sync/fxproxy.rs, the lines given at the program points of SyncProxyModel.v. *)
  Definition touch_of (p : pc V E) : touch :=
    match p with
    | L_Load | K_Flag _ => TLoadFlag
    | RI_SetFlag _ | C_Flag | S_Flag _ | X_Flag => TStoreFlag
    | RI_Check _ | RI_Recheck _ | R_Map _ | M_Map _ | K_Val | D_Val | G_Get _ => TLoadValue
    | RI_SetVal _ _ | G_Set _ => TStoreValue
    | C_Take | S_Rep _ | X_Take => TSwapValue
    | _ => TNone
    end.
  (** How [a] owns the lock of sync/fxproxy.rs:70. *)
  Definition own_of (s : st V E) (a : aid) : own :=
    if match lw s with Some b => Nat.eqb b a | None => false end then Exclusive
    else if match lu s with Some b => Nat.eqb b a | None => false end then Upgradable
    else if existsb (Nat.eqb a) (lr s) then Shared else Free.
  (** Knowledge is per activity (sync/fxproxy.rs:68-75). *)
  Definition updk (f : aid -> list nat) (a : aid) (k : list nat) : aid -> list nat :=
    fun b => if Nat.eqb b a then k else f b.
  (** One step of the code for [a]: step_code of SyncProxyModel.v on what is loaded; [i]
      tells which write a load gets, [j] where a store is put. *)
  Definition wcode (w : wst) (a : aid) (i j : nat) : option (wst * list (event V E)) :=
    let k := knows w a in
    let t := touch_of (pcs (core w) a) in
    match (if loads_flag t then load k (flags w) i else Some (0, flag (core w))),
          (if loads_value t then load k (values w) i else Some (0, value (core w))) with
    | Some f, Some v =>
        match step_code (set_flag (set_value (core w) (snd v)) (snd f)) a with
        | Some (c, evs) =>
            let n := next w in
            match (if stores_flag t then store k (flags w) j (n, flag c) else Some (flags w)),
                  (if stores_value t then store k (values w) j (n, value c) else Some (values w)) with
            | Some fl, Some vl =>
                let k1 := match t with TNone => k | TLoadFlag => fst f :: k | _ => n :: k end in
                let '(k2, kw', kr') := transfer (own_of (core w) a) (own_of c a) k1 (kw w) (kr w) in
                let touches := loads_value t || stores_value t in
                Some (mkw c fl vl (updk (knows w) a k2) kw' kr' (S n)
                        (if touches then (n, stores_value t) :: log w else log w)
                        (racy w || (touches && races k (log w) (stores_value t))), evs)
            | _, _ => None
            end
        | None => None
        end
    | _, _ => None
    end.
  (** An action of SyncProxyModel.v, or [a] telling [b] all it knows. *)
  Inductive waction : Type := WDo (x : action V E) (i j : nat) | WTell (a b : aid).
  (** One action; calls and the ends of builders (sync/fxproxy.rs:150) do not touch the
      container. *)
  Definition wstep (w : wst) (x : waction) : option (wst * list (event V E)) :=
    match x with
    | WDo (AStep a) i j => wcode w a i j
    | WDo x _ _ =>
        match step (core w) x with
        | Some (c, evs) =>
            Some (mkw c (flags w) (values w) (knows w) (kw w) (kr w) (next w) (log w) (racy w), evs)
        | None => None
        end
    | WTell a b =>
        Some (mkw (core w) (flags w) (values w) (updk (knows w) b (knows w a ++ knows w b)) (kw w) (kr w)
                (next w) (log w) (racy w), [])
    end.
  (** A schedule. *)
  Fixpoint wrun (w : wst) (l : list waction) : option (wst * list (event V E)) :=
    match l with
    | [] => Some (w, [])
    | x :: l' =>
        match wstep w x with
        | Some (w1, t1) => match wrun w1 l' with Some (w2, t2) => Some (w2, t1 ++ t2) | None => None end
        | None => None
        end
    end.
  (** The same schedule for SyncProxyModel.v. *)
  Definition strong (l : list waction) : list (action V E) :=
    flat_map (fun x => match x with WDo x _ _ => [x] | WTell _ _ => [] end) l.
  (** Who tells whom in a schedule. *)
  Definition tells (l : list waction) : list (aid * aid) :=
    flat_map (fun x => match x with WDo _ _ _ => [] | WTell a b => [(a, b)] end) l.
End Weak.
Arguments wst : clear implicits.
Arguments waction : clear implicits.
