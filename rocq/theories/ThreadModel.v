(** Running the emitted methods of a lazy field of a sync or async struct in any number of
    threads.

    RustSem.v runs an emitted method at one go against a container that is a value.  Here
    the body of a method is unfolded into the calls it makes on the container, one after
    the other, so that other activities can come in between; the containers are those of
    SyncProxyModel.v and AsyncProxyModel.v, step by step.

    Simplifications: as in RustSem.v ([clone] and [into] are the identity, temporaries die
    at the end of the statement); a method keeps at most one guard at a time, which is
    so in all bodies emitted by codegen/sync.rs. *)
From Coq Require Import List Bool String Arith.
From Verif Require Import ProxyTypes ArgsModel RustAst RustSem FieldSpec FieldRun ThreadSpec.
From Verif Require SyncProxyModel AsyncProxyModel.
Import ListNotations.
Open Scope string_scope.

(** What remains of a method: it is over, or it makes a call on the container and goes on
    with what that returns. *)
Inductive comp :=
| Fin (o : obs) (g : option guard)
| Wrong                            (* not a meaningful program *)
| Op (o : op nat) (k : res nat nat -> comp).

(** Values in a method, as in RustSem.v.  [XGuard w raw n]: a guard of the container,
    [n] having been seen behind it; [XFut o]: a future not awaited yet. *)
Inductive xval :=
| XT (n : nat) | XInto (n : nat) | XSelf | XBool (b : bool)
| XNone | XSome (v : xval) | XOk (v : xval) | XErr (e : nat)
| XGuard (w raw : bool) (n : nat)
| XFut (o : fop).
(** Values and the two places: the container and what is behind the guard. *)
Inductive xrv := XV (v : xval) | XField | XBehind.

Definition xopt (o : option nat) : xval := match o with Some n => XSome (XT n) | None => XNone end.
(** What the caller sees of a result (FieldRun.v, [see]). *)
Fixpoint xsee (v : xval) : option answer :=
  match v with
  | XT n | XGuard _ false n => Some (AnVal n)
  | XGuard _ true _ => Some AnWriter
  | XBool b => Some (AnBool b)
  | XErr e => Some (AnErr e)
  | XNone => Some (AnOpt None)
  | XSome (XT n) => Some (AnOpt (Some n))
  | XOk w => xsee w
  | _ => None
  end.
Fixpoint xkept (v : xval) : option guard :=
  match v with XGuard w raw _ => Some (mk_guard w raw) | XOk w => xkept w | _ => None end.

(** Guards are dropped when the statement or method ends that made them. *)
Definition leave (h : bool) (c : comp) : comp := if h then Op GDrop (fun _ => c) else c.

Definition kont := bool -> xrv -> comp.
(** An operation of the container, once it runs: fieldx/src/sync/fxproxy.rs:166-217,
    fieldx/src/async/fxproxy.rs:171-225.  [h]: a guard is alive. *)
Definition xrun (o : fop) (h : bool) (k : kont) : comp :=
  match o with
  | FPRead try mut =>
      Op (match try, mut with
          | false, false => ORead | true, false => OTryRead
          | false, true => OReadMut | true, true => OTryReadMut
          end)
         (fun r => match r with
                   | RGuard n => k true (XV (let g := XGuard mut false n in if try then XOk g else g))
                   | RErr e => if try then k h (XV (XErr e)) else Wrong
                   | RPanic => leave h (Fin OPanic None)
                   | _ => Wrong
                   end)
  | FPWrite => Op OWrite (fun r => match r with RUnit => k true (XV (XGuard true true 0)) | _ => Wrong end)
  | FPClear => Op OClear (fun r => match r with RVal o => k h (XV (xopt o)) | _ => Wrong end)
  | _ => Wrong
  end.
(** Async operations are futures until awaited: async/fxproxy.rs:171-225. *)
Definition xstart (a : bool) (o : fop) (h : bool) (k : kont) : comp :=
  if a then k h (XV (XFut o)) else xrun o h k.
(** Using a place by value: Deref of the guard. *)
Definition xby_val (r : xrv) (h : bool) (k : bool -> xval -> comp) : comp :=
  match r with
  | XV v => k h v
  | XBehind => Op GGet (fun r => match r with RVal (Some n) => k h (XT n) | _ => Wrong end)
  | XField => Wrong
  end.

Section Run.
Variable asy : bool.              (* FXProxyAsync *)
Variable alive : bool.            (* is there an owner for myself() to find? *)

(** Methods without arguments: sync/fxproxy.rs:128 (is_set), 204 (write), 214 (clear);
    myself() and expect(): codegen.rs:253-280, codegen_trait.rs:530-545. *)
Definition xmeth0 (m : meth) (q : xrv) (h : bool) (k : kont) : comp :=
  match m, q with
  | MInto, XV (XInto n) => k h (XV (XT n))
  | (MUnwrap | MExpect), XV (XSome v | XOk v) => k h (XV v)
  | (MUnwrap | MExpect), XV (XNone | XErr _) => leave h (Fin OPanic None)
  | MMyself, XV XSelf => k h (XV (if alive then XSome XSelf else XNone))
  | MClone, XBehind => xby_val q h (fun h v => k h (XV v))
  | MWrite, XField => xstart asy FPWrite h k
  | MClear, XField => xstart asy FPClear h k
  | MIsSet, XField => Op OIsSet (fun r => match r with RBool b => k h (XV (XBool b)) | _ => Wrong end)
  | _, _ => Wrong
  end.
(** Methods with one argument: sync/fxproxy.rs:166-202 (read and its variants), 232 (store
    of the write guard). *)
Definition xmeth1 (m : meth) (q : xrv) (x : xval) (h : bool) (k : kont) : comp :=
  match m, q, x with
  | MRead, XField, XSelf => xstart asy (FPRead false false) h k
  | MTryRead, XField, XSelf => xstart asy (FPRead true false) h k
  | MReadMut, XField, XSelf => xstart asy (FPRead false true) h k
  | MTryReadMut, XField, XSelf => xstart asy (FPRead true true) h k
  | MStore, XV (XGuard true true _), XT n =>
      Op (GStore n) (fun r => match r with RVal o => k h (XV (xopt o)) | _ => Wrong end)
  | _, _, _ => Wrong
  end.
Definition xnew1 (p : path) (v : xval) : option xval :=
  match p with PSome => Some (XSome v) | POk => Some (XOk v) | _ => None end.

Fixpoint xfind (l : list (string * xval)) (x : string) : option xval :=
  match l with
  | [] => None
  | (y, v) :: t => if String.eqb x y then Some v else xfind t x
  end.

(** The bodies emitted for lazy fields by codegen/sync.rs:63-647, in the order of
    evaluation of RustSem.v; [ret]: leaving the method through [?]. *)
Fixpoint cev (rho : list (string * xval)) (e : expr) (h : bool) (ret : bool -> xval -> comp) (k : kont)
  {struct e} : comp :=
  match e with
  | EVar x => match xfind rho x with Some v => k h (XV v) | None => Wrong end
  | EFld _ => k h XField
  | EM0 r m => cev rho r h ret (fun h q => xmeth0 m q h k)
  | EM1 r m a => cev rho r h ret (fun h q => cev rho a h ret (fun h p => xby_val p h (fun h x => xmeth1 m q x h k)))
  | EC1 p a =>
      cev rho a h ret (fun h q => xby_val q h (fun h v =>
        match xnew1 p v with Some w => k h (XV w) | None => Wrong end))
  | ERef a => cev rho a h ret (fun h q => match q with XV v => k h (XV v) | _ => Wrong end)
  | EDeref a => cev rho a h ret (fun h q => match q with XV (XGuard _ false _) => k h XBehind | _ => Wrong end)
  | ETry a =>
      cev rho a h ret (fun h q =>
        match q with XV (XOk w) => k h (XV w) | XV (XErr e') => ret h (XErr e') | _ => Wrong end)
  | EAwait a => cev rho a h ret (fun h q => match q with XV (XFut o) => xrun o h k | _ => Wrong end)
  | ELet _ x a b =>
      cev rho a h ret (fun h q => xby_val q h (fun h v =>
        match xkept v with
        | Some _ => cev ((x, v) :: rho) b h ret k
        | None => if h then Op GDrop (fun _ => cev ((x, v) :: rho) b false ret k)
                  else cev ((x, v) :: rho) b h ret k
        end))
  | _ => Wrong
  end.

(** The end of a method: what it returns, and the guard in it. *)
Definition xfinish (h : bool) (v : xval) : comp :=
  match xsee v with
  | None => Wrong
  | Some an =>
      match xkept v with
      | Some g => Fin (ORet an) (Some g)
      | None => leave h (Fin (ORet an) None)
      end
  end.
Definition xarg (t : option ty) (n : nat) : list (string * xval) :=
  match t with
  | Some TIntoT => [("value", XInto n)]
  | Some _ => [("value", XT n)]
  | None => []
  end.
(** A method emitted by codegen/sync.rs, called with [n]. *)
Definition script (m : mdecl) (n : nat) : comp :=
  cev (("self", XSelf) :: xarg (m_arg m) n) (m_body m) false xfinish (fun h q => xby_val q h xfinish).
End Run.

(** User code with a guard: sync/fxproxy.rs:232-240 and Deref, DerefMut of the mapped
    guards. *)
Definition use_script (g : guard) (u : use) : comp :=
  match u with
  | Look =>
      if gd_raw g then Fin (ORet AnWriter) (Some g)
      else Op GGet (fun r => match r with RVal (Some n) => Fin (ORet (AnVal n)) (Some g) | _ => Wrong end)
  | Put (Some n) =>
      if gd_raw g then Op (GStore n) (fun r => match r with RVal _ => Fin ODone (Some g) | _ => Wrong end)
      else Op (GSet n) (fun r => match r with RUnit => Fin ODone (Some g) | _ => Wrong end)
  | Put None =>
      if gd_raw g then Op GClear (fun r => match r with RVal _ => Fin ODone (Some g) | _ => Wrong end) else Wrong
  | LetGo => Op GDrop (fun _ => Fin ODone None)
  end.

(** Uses that type-check: only write guards have DerefMut, only FXWrLockGuard* has clear
    (sync/fxproxy.rs:220-241). *)
Definition use_ok (g : guard) (u : use) : bool :=
  match u with Put (Some _) => gd_write g | Put None => gd_raw g | _ => true end.

(** ** Many activities *)
(** Where an activity is: an async method does nothing before it is polled. *)
Inductive thr :=
| Idle
| Fresh (c : comp)                 (* a future nobody has polled *)
| Doing (c : comp)
| Waiting (k : res nat nat -> comp)   (* inside a call on the container *)
| Keeping (g : guard).

(** Steps of the container, for either flavour. *)
Inductive bact := BCall (a : aid) (o : op nat) | BStep (a : aid) | BBuilt (a : aid) (b : outcome nat nat) | BCancel (a : aid).

Section Machine.
Variable St : Type.
Variable bstep : St -> bact -> option (St * list (event nat nat)).
Variable ms : list mdecl.
Variables asy alive : bool.

(** What a schedule can ask for. *)
Inductive mact :=
| MInvoke (a : aid) (k : hkind) (n : nat)    (* user code calls a method *)
| MUse (a : aid) (u : use)                   (* user code uses the guard it keeps *)
| MGo (a : aid)                              (* the code of the method goes on *)
| MStep (a : aid)                            (* the code of the container goes on *)
| MBuilt (a : aid) (b : outcome nat nat)     (* the builder ends *)
| MAbandon (a : aid).                        (* the future of the call is dropped *)

Record mstate := mk_mstate { m_box : St; m_thr : aid -> thr }.
Definition set_thr (f : aid -> thr) (a : aid) (x : thr) : aid -> thr := fun b => if Nat.eqb b a then x else f b.

(** The answer of the container, if the call of [a] is over. *)
Fixpoint answer_for (a : aid) (t : list (event nat nat)) : option (res nat nat) :=
  match t with
  | [] => None
  | EvRet b r :: t' => if Nat.eqb b a then Some r else answer_for a t'
  | _ :: t' => answer_for a t'
  end.
(** What follows a step of the container: the method goes on, unless its future was
    dropped. *)
Definition resumed (a : aid) (k : res nat nat -> comp) (t : list (event nat nat)) : thr * list hist :=
  match answer_for a t with
  | None => (Waiting k, [])
  | Some RCancelled => (Idle, [HGone a])
  | Some r => (Doing (k r), [])
  end.

(** One action; the methods are those emitted by codegen/sync.rs, [async fn]s among them
    (sync.rs:89-103) start when polled. *)
Definition mstep (s : mstate) (x : mact) : option (mstate * list hist * list (event nat nat)) :=
  match x with
  | MInvoke a k n =>
      match m_thr s a, find_method k ms with
      | Idle, Some m =>
          let c := script asy alive m n in
          Some (mk_mstate (m_box s) (set_thr (m_thr s) a (if m_async m then Fresh c else Doing c)), [HCall a k n], [])
      | _, _ => None
      end
  | MUse a u =>
      match m_thr s a with
      | Keeping g =>
          if use_ok g u then Some (mk_mstate (m_box s) (set_thr (m_thr s) a (Doing (use_script g u))), [HUse a u], [])
          else None
      | _ => None
      end
  | MGo a =>
      match m_thr s a with
      | Fresh c => Some (mk_mstate (m_box s) (set_thr (m_thr s) a (Doing c)), [], [])
      | Doing (Op o k) =>
          match bstep (m_box s) (BCall a o) with
          | Some (b, t) => Some (mk_mstate b (set_thr (m_thr s) a (Waiting k)), [], t)
          | None => None
          end
      | Doing (Fin o g) =>
          Some (mk_mstate (m_box s) (set_thr (m_thr s) a (match g with Some h => Keeping h | None => Idle end)),
                [HRet a o], [])
      | _ => None
      end
  | MStep a | MBuilt a _ | MAbandon a =>
      match x, m_thr s a with
      | MAbandon _, Fresh _ => Some (mk_mstate (m_box s) (set_thr (m_thr s) a Idle), [HGone a], [])
      | _, Waiting k =>
          match bstep (m_box s) (match x with MBuilt _ b => BBuilt a b | MAbandon _ => BCancel a | _ => BStep a end) with
          | Some (b, t) =>
              let y := resumed a k t in
              Some (mk_mstate b (set_thr (m_thr s) a (fst y)), snd y, t)
          | None => None
          end
      | _, _ => None
      end
  end.
(** A schedule: what users see, and what happens in the container. *)
Fixpoint mrun (s : mstate) (l : list mact) : option (mstate * list hist * list (event nat nat)) :=
  match l with
  | [] => Some (s, [], [])
  | x :: l' =>
      match mstep s x with
      | Some (s1, h1, t1) =>
          match mrun s1 l' with
          | Some (s2, h2, t2) => Some (s2, (h1 ++ h2)%list, (t1 ++ t2)%list)
          | None => None
          end
      | None => None
      end
  end.
End Machine.
Arguments mk_mstate {St}. Arguments m_box {St}. Arguments m_thr {St}.

(** ** The containers *)
(** FXProxySync: nothing can be abandoned (sync/fxproxy.rs). *)
Definition sync_box (s : SyncProxyModel.st nat nat) (y : bact) : option (SyncProxyModel.st nat nat * list (event nat nat)) :=
  match y with
  | BCall a o => SyncProxyModel.step s (SyncProxyModel.ACall a o)
  | BStep a => SyncProxyModel.step s (SyncProxyModel.AStep a)
  | BBuilt a b => SyncProxyModel.step s (SyncProxyModel.ABuilt a b)
  | BCancel _ => None
  end.
(** FXProxyAsync (async/fxproxy.rs). *)
Definition async_box (s : AsyncProxyModel.st nat nat) (y : bact) : option (AsyncProxyModel.st nat nat * list (event nat nat)) :=
  AsyncProxyModel.step s
    match y with
    | BCall a o => AsyncProxyModel.ACall a o
    | BStep a => AsyncProxyModel.AStep a
    | BBuilt a b => AsyncProxyModel.ABuilt a b
    | BCancel a => AsyncProxyModel.ACancel a
    end.
(** The field of a struct shared by all activities, from its content at the beginning
    (codegen/sync.rs:166-171, new_default). *)
Definition together (asy alive : bool) (ms : list mdecl) (o : option nat) (l : list mact) :
    option ((aid -> thr) * list hist * list (event nat nat)) :=
  if asy then
    match mrun _ async_box ms asy alive (mk_mstate (AsyncProxyModel.init o) (fun _ => Idle)) l with
    | Some (s, h, t) => Some (m_thr s, h, t)
    | None => None
    end
  else
    match mrun _ sync_box ms asy alive (mk_mstate (SyncProxyModel.init o) (fun _ => Idle)) l with
    | Some (s, h, t) => Some (m_thr s, h, t)
    | None => None
    end.
