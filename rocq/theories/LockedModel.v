(** Running the emitted methods of a locked field (FXRwLockSync, FXRwLockAsync) of a sync or
    async struct in any number of threads.

    As in ThreadModel.v the body of a method is unfolded into what it does with the
    container, so that other activities can come in between.  The container is a lock
    around the content: fieldx/src/sync/fxlock.rs:8-22, fieldx/src/async/fxlock.rs:8-31.

    Simplifications: as in RustSem.v ([clone] and [into] are the identity, temporaries die
    with the method); a method keeps at most one guard at a time, which is so in all
    bodies emitted by codegen/sync.rs; the lock is granted whenever the guards alive allow
    it, in any order (parking_lot and tokio may make a reader wait for a waiting writer:
    that removes schedules). *)
From Coq Require Import List Bool String Arith.
From Verif Require Import ProxyTypes ArgsModel RustAst FieldSpec FieldRun ThreadSpec.
Import ListNotations.
Open Scope string_scope.

(** What code does with the lock: lock it (for writing?), look behind the guard, exchange
    what is behind it, drop the guard.  Each tells the content as it was before. *)
Inductive lop := LAcq (w : bool) | LLook | LSwap (o : option nat) | LDrop.
(** What remains of a method. *)
Inductive lcomp :=
| LFin (o : obs) (g : option guard)
| LWrong                           (* not a meaningful program *)
| LOp (o : lop) (k : option nat -> lcomp).

(** Values in a method.  [YGuard w o]: a guard, [o] seen behind it; [YFut w]: the future
    of read() or write() of the async lock (async/fxlock.rs:23-31). *)
Inductive yval :=
| YT (n : nat) | YInto (n : nat) | YSelf | YBool (b : bool) | YOpt (o : option nat)
| YGuard (w : bool) (o : option nat) | YFut (w : bool).
Inductive yrv := YV (v : yval) | YField | YBehind.
Definition ykont := bool -> yrv -> lcomp.

Section Run.
Variable asy : bool.              (* FXRwLockAsync *)
Variable opt : bool.              (* the content is an Option<T> *)

(** The content as a value. *)
Definition content (o : option nat) : option yval :=
  if opt then Some (YOpt o) else match o with Some n => Some (YT n) | None => None end.
(** Guards die with the method that made them unless it returns them. *)
Definition lleave (h : bool) (c : lcomp) : lcomp := if h then LOp LDrop (fun _ => c) else c.
(** read() and write(): parking_lot through Deref (sync/fxlock.rs:43-49); tokio
    (async/fxlock.rs:23-31), a future until awaited. *)
Definition ylock (w : bool) (k : ykont) : lcomp := LOp (LAcq w) (fun o => k true (YV (YGuard w o))).
Definition ystart (w h : bool) (k : ykont) : lcomp := if asy then k h (YV (YFut w)) else ylock w k.
(** Looking behind the guard. *)
Definition ylook (h : bool) (k : bool -> yval -> lcomp) : lcomp :=
  LOp LLook (fun o => match content o with Some v => k h v | None => LWrong end).
Definition yby_val (q : yrv) (h : bool) (k : bool -> yval -> lcomp) : lcomp :=
  match q with YV v => k h v | YBehind => ylook h k | YField => LWrong end.
(** Exchanging what is behind the guard: mem::replace, Option::replace, Option::take. *)
Definition yswap (x : option nat) (h : bool) (k : ykont) : lcomp :=
  LOp (LSwap x) (fun o => match content o with Some v => k h (YV v) | None => LWrong end).

(** Methods without arguments.  [is_some], [take] and [replace] reach an Option through the
    guard (sync.rs:541-549, 594, 632). *)
Definition ymeth0 (m : meth) (q : yrv) (h : bool) (k : ykont) : lcomp :=
  match m, q with
  | MInto, YV (YInto n) => k h (YV (YT n))
  | MRead, YField => ystart false h k
  | MWrite, YField => ystart true h k
  | MClone, YBehind => if opt then LWrong else ylook h (fun h v => k h (YV v))
  | MAsRef, YBehind => if opt then ylook h (fun h v => k h (YV v)) else LWrong
  | (MCopied | MCloned), YV (YOpt o) => k h (YV (YOpt o))
  | MIsSome, YV (YGuard _ _) =>
      if opt then LOp LLook (fun o => k h (YV (YBool (match o with Some _ => true | None => false end)))) else LWrong
  | MTake, YV (YGuard true _) => if opt then yswap None h k else LWrong
  | _, _ => LWrong
  end.
Definition ymeth1 (m : meth) (q : yrv) (x : yval) (h : bool) (k : ykont) : lcomp :=
  match m, q, x with
  | MReplace, YV (YGuard true _), YT n => if opt then yswap (Some n) h k else LWrong
  | _, _, _ => LWrong
  end.
Definition ynew2 (p : path) (q : yrv) (x : yval) (h : bool) (k : ykont) : lcomp :=
  match p, q, x with
  | PMemReplace, YBehind, YT n => if opt then LWrong else yswap (Some n) h k
  | _, _, _ => LWrong
  end.

Fixpoint yfind (l : list (string * yval)) (x : string) : option yval :=
  match l with
  | [] => None
  | (y, v) :: t => if String.eqb x y then Some v else yfind t x
  end.
(** The bodies emitted for locked fields by codegen/sync.rs:63-111, 212-370, 456-647. *)
Fixpoint yev (rho : list (string * yval)) (e : expr) (h : bool) (k : ykont) {struct e} : lcomp :=
  match e with
  | EVar x => match yfind rho x with Some v => k h (YV v) | None => LWrong end
  | EFld _ => k h YField
  | EM0 r m => yev rho r h (fun h q => ymeth0 m q h k)
  | EM1 r m a => yev rho r h (fun h q => yev rho a h (fun h p => yby_val p h (fun h x => ymeth1 m q x h k)))
  | EC2 p a b => yev rho a h (fun h q => yev rho b h (fun h r => yby_val r h (fun h x => ynew2 p q x h k)))
  | EMut a => yev rho a h (fun h q => match q with YBehind => k h q | _ => LWrong end)
  | EDeref a => yev rho a h (fun h q => match q with YV (YGuard _ _) => k h YBehind | _ => LWrong end)
  | EAwait a => yev rho a h (fun h q => match q with YV (YFut w) => ylock w k | _ => LWrong end)
  | ELet _ x a b =>
      yev rho a h (fun h q => match q with YV (YGuard w o) => yev ((x, YGuard w o) :: rho) b h k | _ => LWrong end)
  | _ => LWrong
  end.

(** What the caller sees of a result, and the guard in it. *)
Definition ysee (v : yval) : option answer :=
  match v with
  | YT n => Some (AnVal n)
  | YBool b => Some (AnBool b)
  | YOpt o => Some (AnOpt o)
  | YGuard _ o => match content o with Some (YT n) => Some (AnVal n) | Some (YOpt o) => Some (AnOpt o) | _ => None end
  | _ => None
  end.
Definition yfinish (h : bool) (v : yval) : lcomp :=
  match ysee v with
  | None => LWrong
  | Some an =>
      match v with
      | YGuard w _ => LFin (ORet an) (Some (mk_guard w false))
      | _ => lleave h (LFin (ORet an) None)
      end
  end.
Definition yarg (t : option ty) (n : nat) : list (string * yval) :=
  match t with
  | Some TIntoT => [("value", YInto n)]
  | Some _ => [("value", YT n)]
  | None => []
  end.
(** A method emitted by codegen/sync.rs, called with [n]. *)
Definition lscript (m : mdecl) (n : nat) : lcomp :=
  yev (("self", YSelf) :: yarg (m_arg m) n) (m_body m) false (fun h q => yby_val q h yfinish).

(** User code with a guard: Deref and DerefMut of the guards of parking_lot and tokio. *)
Definition luse (g : guard) (u : use) : lcomp :=
  match u with
  | Look => LOp LLook (fun o => match ysee (YGuard false o) with Some an => LFin (ORet an) (Some g) | None => LWrong end)
  | Put x => LOp (LSwap x) (fun _ => LFin ODone (Some g))
  | LetGo => LOp LDrop (fun _ => LFin ODone None)
  end.
(** Uses that type-check: only write guards have DerefMut; None is a value of Option<T>. *)
Definition luse_ok (g : guard) (u : use) : bool :=
  match u with Put (Some _) => gd_write g | Put None => gd_write g && opt | _ => true end.

(** ** The lock *)
(** The types of locked fields (sync.rs:114-134, 179-197): which lock, and does it hold an
    Option<T>? *)
Definition lock_of (t : ty) : option (bool * bool) :=
  match t with TLock a (TOpt TT) => Some (a, true) | TLock a TT => Some (a, false) | _ => None end.
(** parking_lot::RwLock and tokio::sync::RwLock by contract. *)
Record lbox := mk_lbox { b_val : option nat; b_lr : list aid; b_lw : option aid }.
Definition lstep (b : lbox) (a : aid) (o : lop) : option lbox :=
  match o with
  | LAcq true => match b_lw b, b_lr b with None, [] => Some (mk_lbox (b_val b) [] (Some a)) | _, _ => None end
  | LAcq false => match b_lw b with None => Some (mk_lbox (b_val b) (a :: b_lr b) None) | Some _ => None end
  | LLook => Some b
  | LSwap x => match b_lw b with Some w => if Nat.eqb w a then Some (mk_lbox x (b_lr b) (b_lw b)) else None | None => None end
  | LDrop =>
      Some (mk_lbox (b_val b) (filter (fun r => negb (Nat.eqb r a)) (b_lr b))
              (match b_lw b with Some w => if Nat.eqb w a then None else Some w | None => None end))
  end.

(** ** Many activities *)
Inductive lthr :=
| LIdle
| LFresh (c : lcomp)               (* a future nobody has polled *)
| LDoing (c : lcomp)
| LKeeping (g : guard).
Record lstate := mk_lstate { l_box : lbox; l_thr : aid -> lthr }.
Definition set_lthr (f : aid -> lthr) (a : aid) (x : lthr) : aid -> lthr := fun b => if Nat.eqb b a then x else f b.

(** What a schedule can ask for. *)
Inductive lact :=
| LInvoke (a : aid) (k : hkind) (n : nat)    (* user code calls a method *)
| LUse (a : aid) (u : use)                   (* user code uses the guard it keeps *)
| LGo (a : aid)                              (* the code of the method goes on *)
| LAbandon (a : aid).                        (* the future of the call is dropped *)

Variable ms : list mdecl.
(** One action.  [async fn]s (sync.rs:89-103) start when polled; they can be dropped before
    that and while they wait for the lock, which is their only await. *)
Definition lmove (s : lstate) (x : lact) : option (lstate * list hist) :=
  match x with
  | LInvoke a k n =>
      match l_thr s a, find_method k ms with
      | LIdle, Some m =>
          Some (mk_lstate (l_box s) (set_lthr (l_thr s) a (if m_async m then LFresh (lscript m n) else LDoing (lscript m n))),
                [HCall a k n])
      | _, _ => None
      end
  | LUse a u =>
      match l_thr s a with
      | LKeeping g =>
          if luse_ok g u then Some (mk_lstate (l_box s) (set_lthr (l_thr s) a (LDoing (luse g u))), [HUse a u]) else None
      | _ => None
      end
  | LGo a =>
      match l_thr s a with
      | LFresh c => Some (mk_lstate (l_box s) (set_lthr (l_thr s) a (LDoing c)), [])
      | LDoing (LOp o k) =>
          match lstep (l_box s) a o with
          | Some b => Some (mk_lstate b (set_lthr (l_thr s) a (LDoing (k (b_val (l_box s))))), [])
          | None => None
          end
      | LDoing (LFin o g) =>
          Some (mk_lstate (l_box s) (set_lthr (l_thr s) a (match g with Some h => LKeeping h | None => LIdle end)), [HRet a o])
      | _ => None
      end
  | LAbandon a =>
      match l_thr s a with
      | LFresh _ => Some (mk_lstate (l_box s) (set_lthr (l_thr s) a LIdle), [HGone a])
      | LDoing (LOp (LAcq _) _) =>
          if asy then Some (mk_lstate (l_box s) (set_lthr (l_thr s) a LIdle), [HGone a]) else None
      | _ => None
      end
  end.
Fixpoint lmoves (s : lstate) (l : list lact) : option (lstate * list hist) :=
  match l with
  | [] => Some (s, [])
  | x :: l' =>
      match lmove s x with
      | Some (s1, h1) => match lmoves s1 l' with Some (s2, h2) => Some (s2, (h1 ++ h2)%list) | None => None end
      | None => None
      end
  end.
(** The field of a struct shared by all activities, from its content at the beginning
    (sync.rs:649-690, field_value_wrap). *)
Definition shared (o : option nat) (l : list lact) : option ((aid -> lthr) * list hist) :=
  match lmoves (mk_lstate (mk_lbox o [] None) (fun _ => LIdle)) l with
  | Some (s, h) => Some (l_thr s, h)
  | None => None
  end.
End Run.
