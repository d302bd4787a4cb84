(** Running the emitted code of one field in one thread.

    The storage of the field is a value; references and guards are paths into it.  The
    containers behave as documented by std, once_cell, parking_lot and tokio; a
    FXProxySync / FXProxyAsync behaves as an atomic optional cell with a builder, which is
    what C05 and C14 prove about fieldx/src/sync/fxproxy.rs and fieldx/src/async/
    fxproxy.rs.  Futures do nothing until awaited.

    Simplifications: the declared type is represented by [nat], [clone] and [into] are
    the identity on it; temporaries holding a guard are released at the end of the
    statement, or kept if the guard is what the method returns. *)
From Coq Require Import List Bool String Arith.
From Verif Require Import ProxyTypes ArgsModel RustAst.
Import ListNotations.
Open Scope string_scope.

(** What is run are the token sequences of plain.rs, sync.rs and codegen_trait.rs in
    fieldx_derive/src/codegen, transcribed in PlainGen.v, SyncGen.v, CommonGen.v; the
    definitions below cite the library code called by them. *)

(** Steps into a value: the inside of a container, the payload of Some. *)
Inductive step := IIn | ISome.
Definition path_in := list step.

(** Operations of locks and proxies that are futures in the async flavour: fieldx/src/
    sync/fxproxy.rs:134-217 against async/fxproxy.rs:149-227; FXRwLockAsync dereferences
    to tokio's RwLock (async/fxlock.rs:11-31). *)
Inductive fop :=
| FLRead | FLWrite                                    (* FXRwLock*: read, write *)
| FPRead (try mut : bool) | FPWrite | FPClear | FPInit.  (* FXProxy* *)

(** Values of the types emitted as field types (plain.rs:40-61, sync.rs:179-213) and
    as results of the methods on them. *)
Inductive val :=
| VT (n : nat)                    (* a value of the declared type *)
| VInto (n : nat)                 (* a value to be converted into it *)
| VUnit | VBool (b : bool)
| VSelf                           (* the struct, by reference or counted *)
| VNone | VSome (v : val)
| VOk (v : val) | VErr (e : nat)
| VOnce (o : option val) | VCell (v : val)
| VLock (a : bool) (v : val)
| VProxy (a : bool) (o : option val)
| VWrap                           (* the wrapped builder *)
| VRef (p : path_in)              (* & or &mut *)
| VGuard (w : bool) (p : path_in) (* a guard of a RefCell, lock or proxy *)
| VFut (o : fop) (p : path_in)
| VDflt.                          (* Default::default(), type not known yet *)

(** State: the storage of the field; read guards alive and whether a write guard is;
    how often the user's builder was called. *)
Record st := mk_st { fld : val; rd : nat; wr : bool; calls : nat }.
Definition put_fld (s : st) (v : val) : st := mk_st v (rd s) (wr s) (calls s).

Fixpoint get_at (v : val) (p : path_in) : option val :=
  match p, v with
  | [], _ => Some v
  | IIn :: q, (VCell w | VLock _ w | VOnce (Some w) | VProxy _ (Some w)) => get_at w q
  | ISome :: q, VSome w => get_at w q
  | _, _ => None
  end.
Fixpoint set_at (v : val) (p : path_in) (x : val) : option val :=
  match p, v with
  | [], _ => Some x
  | IIn :: q, VCell w => option_map VCell (set_at w q x)
  | IIn :: q, VLock a w => option_map (VLock a) (set_at w q x)
  | IIn :: q, VOnce (Some w) => option_map (fun y => VOnce (Some y)) (set_at w q x)
  | IIn :: q, VProxy a (Some w) => option_map (fun y => VProxy a (Some y)) (set_at w q x)
  | ISome :: q, VSome w => option_map VSome (set_at w q x)
  | _, _ => None
  end.

(** What an expression denotes: a value or a place in the storage. *)
Inductive rv := RV (v : val) | RP (p : path_in).
Inductive out :=
| Ok (r : rv) (s : st)
| Ret (v : val) (s : st)          (* left through [?] *)
| Panic (s : st)
| Block (s : st)                  (* waits for a lock held by this very thread *)
| Stuck.                          (* not a meaningful program *)
Definition bnd (o : out) (k : rv -> st -> out) : out :=
  match o with Ok r s => k r s | Ret v s => Ret v s | Panic s => Panic s | Block s => Block s
             | Stuck => Stuck end.

Section Run.
(** The user's builder by number of the call; an infallible builder cannot return an
    error, an error in the oracle counts as a panic for it. *)
Variable bld : nat -> outcome nat nat.
Variable fallible : bool.
(** Is there an owning reference for myself() to find? *)
Variable alive : bool.
(** The default of the declared type and the user's default expression. *)
Variable dflt : nat.
Variable user : string -> nat.

Definition called (s : st) : st := mk_st (fld s) (rd s) (wr s) (S (calls s)).
(** <Struct>::build_<field>(): one call of the user's function, as done by the
    initializer of plain.rs:67-79 and by [invoke], sync/fxproxy.rs:37 and 62. *)
Definition call_builder (s : st) : out :=
  match bld (calls s) with
  | BOk n => Ok (RV (if fallible then VOk (VT n) else VT n)) (called s)
  | BErr e => if fallible then Ok (RV (VErr e)) (called s) else Panic (called s)
  | BPanic => Panic (called s)
  end.

(** Where a place is used by value. *)
Definition by_val (r : rv) (s : st) : option val :=
  match r with RV v => Some v | RP p => get_at (fld s) p end.
Definition update (s : st) (p : path_in) (x : val) (k : st -> out) : out :=
  match set_at (fld s) p x with Some v => k (put_fld s v) | None => Stuck end.

(** Guards.  [conflict w s]: a guard alive excludes a new one (RefCell::borrow,
    parking_lot and tokio RwLock, by their documentation). *)
Definition conflict (w : bool) (s : st) : bool := wr s || (w && negb (Nat.eqb (rd s) 0)).
Definition hold (w : bool) (s : st) : st :=
  if w then mk_st (fld s) (rd s) true (calls s) else mk_st (fld s) (S (rd s)) (wr s) (calls s).

(** The default of a value of the same type. *)
Definition default_like (v : val) : val :=
  match v with VSome _ | VNone => VNone | VT _ => VT dflt | _ => v end.

(** Lock and proxy operations, once they run.  Reading a set FXProxySync takes the lock
    upgradably (sync/fxproxy.rs:142), a FXProxyAsync takes it for writing even then
    (async/fxproxy.rs:154).  Initialisation: sync 138-161, async 153-166; the four read
    methods: sync 166-201, async 171-210; write: sync 204, async 212; clear: sync 208-217,
    async 216-225; lazy_init: sync 134, async 149 (its error is dropped). *)
Definition run_fop (o : fop) (p : path_in) (s : st) : out :=
  match o, get_at (fld s) p with
  | FLRead, Some (VLock _ _) =>
      if conflict false s then Block s else Ok (RV (VGuard false (p ++ [IIn])%list)) (hold false s)
  | FLWrite, Some (VLock _ _) =>
      if conflict true s then Block s else Ok (RV (VGuard true (p ++ [IIn])%list)) (hold true s)
  | FPRead try mut, Some (VProxy a (Some _)) =>
      if conflict (a || mut) s then Block s
      else Ok (RV (let g := VGuard mut (p ++ [IIn])%list in if try then VOk g else g)) (hold mut s)
  | FPRead try mut, Some (VProxy a None) =>
      if conflict true s then Block s
      else match bld (calls s) with
           | BOk n => update (called s) p (VProxy a (Some (VT n))) (fun s' =>
               Ok (RV (let g := VGuard mut (p ++ [IIn])%list in if try then VOk g else g)) (hold mut s'))
           | BErr e => if try && fallible then Ok (RV (VErr e)) (called s) else Panic (called s)
           | BPanic => Panic (called s)
           end
  | FPWrite, Some (VProxy _ _) =>
      if conflict true s then Block s else Ok (RV (VGuard true p)) (hold true s)
  | FPClear, Some (VProxy a o) =>
      if conflict true s then Block s
      else update s p (VProxy a None) (fun s' =>
             Ok (RV (match o with Some v => VSome v | None => VNone end)) s')
  | FPInit, Some (VProxy a (Some _)) => if conflict a s then Block s else Ok (RV VUnit) s
  | FPInit, Some (VProxy a None) =>
      if conflict true s then Block s
      else match bld (calls s) with
           | BOk n => update (called s) p (VProxy a (Some (VT n))) (fun s' => Ok (RV VUnit) s')
           | BErr e => if fallible then Ok (RV VUnit) (called s) else Panic (called s)
           | BPanic => Panic (called s)
           end
  | _, _ => Stuck
  end.
Definition start_fop (a : bool) (o : fop) (p : path_in) (s : st) : out :=
  if a then Ok (RV (VFut o p)) s else run_fop o p s.

(** Methods without arguments of what is found at a place: Option, OnceCell (once_cell),
    RefCell, FXRwLock* (sync/fxlock.rs:11-50), FXProxy* (into_inner sync/fxproxy.rs:117,
    is_set 128, write 204, clear 214). *)
Definition place0 (m : meth) (p : path_in) (v : val) (s : st) : out :=
  match m, v with
  | MClone, (VT _ | VSome _ | VNone) => Ok (RV v) s
  | MAsRef, VSome _ => Ok (RV (VSome (VRef (p ++ [ISome])%list))) s
  | MAsRef, VNone => Ok (RV VNone) s
  | MTake, (VSome _ | VNone) => update s p VNone (fun s' => Ok (RV v) s')
  | MTake, VOnce o =>
      update s p (VOnce None) (fun s' => Ok (RV (match o with Some w => VSome w | None => VNone end)) s')
  | MTake, VCell w =>
      if conflict true s then Panic s
      else update s p (VCell (default_like w)) (fun s' => Ok (RV w) s')
  | (MGet | MGetMut), VOnce (Some _) => Ok (RV (VSome (VRef (p ++ [IIn])%list))) s
  | (MGet | MGetMut), VOnce None => Ok (RV VNone) s
  | (MUnwrap | MExpect), VSome w => Ok (RV w) s
  | (MUnwrap | MExpect), VNone => Panic s
  | MIsSome, VSome _ => Ok (RV (VBool true)) s
  | MIsSome, VNone => Ok (RV (VBool false)) s
  | MIsNone, VSome _ => Ok (RV (VBool false)) s
  | MIsNone, VNone => Ok (RV (VBool true)) s
  | MBorrow, VCell _ =>
      if conflict false s then Panic s else Ok (RV (VGuard false (p ++ [IIn])%list)) (hold false s)
  | MBorrowMut, VCell _ =>
      if conflict true s then Panic s else Ok (RV (VGuard true (p ++ [IIn])%list)) (hold true s)
  | MRead, VLock a _ => start_fop a FLRead p s
  | MWrite, VLock a _ => start_fop a FLWrite p s
  | MTryRead, VLock false _ =>
      if conflict false s then Ok (RV VNone) s
      else Ok (RV (VSome (VGuard false (p ++ [IIn])%list))) (hold false s)
  | MTryRead, VLock true _ =>
      if conflict false s then Ok (RV (VErr 0)) s
      else Ok (RV (VOk (VGuard false (p ++ [IIn])%list))) (hold false s)
  | MWrite, VProxy a _ => start_fop a FPWrite p s
  | MClear, VProxy a _ => start_fop a FPClear p s
  | MIsSet, VProxy _ o => Ok (RV (VBool (match o with Some _ => true | None => false end))) s
  | MIntoInner, (VLock _ w | VCell w) => Ok (RV w) s
  | MIntoInner, (VProxy _ o | VOnce o) =>
      Ok (RV (match o with Some w => VSome w | None => VNone end)) s
  | _, _ => Stuck
  end.
(** Auto-dereferencing of a receiver.  myself(): codegen.rs:253-280; the expect() after
    it: codegen_trait.rs:530-545. *)
Definition auto (r : rv) : rv :=
  match r with RV (VRef p) | RV (VGuard _ p) => RP p | _ => r end.
Definition meth0 (m : meth) (r : rv) (s : st) : out :=
  match m, r with
  | MInto, RV (VInto n) => Ok (RV (VT n)) s
  | (MUnwrap | MExpect), RV (VSome v | VOk v) => Ok (RV v) s
  | (MUnwrap | MExpect), RV (VNone | VErr _) => Panic s
  | MIsSome, RV (VSome _) => Ok (RV (VBool true)) s
  | MIsSome, RV VNone => Ok (RV (VBool false)) s
  | MClone, RV VSelf => Ok (RV VSelf) s
  | MBuild, RV VSelf => call_builder s
  | MMyself, RV VSelf => Ok (RV (if alive then VSome VSelf else VNone)) s
  | (MCopied | MCloned), RV VNone => Ok (RV VNone) s
  | (MCopied | MCloned), RV (VSome (VRef p)) =>
      match get_at (fld s) p with Some v => Ok (RV (VSome v)) s | None => Stuck end
  | _, _ =>
      match auto r with
      | RP p => match get_at (fld s) p with Some v => place0 m p v s | None => Stuck end
      | RV _ => Stuck
      end
  end.

(** Methods with one argument that is not a closure: Option::replace, RefCell::replace,
    OnceCell::set, the read methods of FXProxy* and store of its write guard
    (sync/fxproxy.rs:232, async/fxproxy.rs:240). *)
Definition place1 (m : meth) (p : path_in) (v x : val) (s : st) : out :=
  match m, v with
  | MReplace, (VSome _ | VNone) => update s p (VSome x) (fun s' => Ok (RV v) s')
  | MReplace, VCell w =>
      if conflict true s then Panic s else update s p (VCell x) (fun s' => Ok (RV w) s')
  | MSet, VOnce None => update s p (VOnce (Some x)) (fun s' => Ok (RV (VOk VUnit)) s')
  | MSet, VOnce (Some _) => Ok (RV (VErr 0)) s
  | MRead, VProxy a _ => start_fop a (FPRead false false) p s
  | MTryRead, VProxy a _ => start_fop a (FPRead true false) p s
  | MReadMut, VProxy a _ => start_fop a (FPRead false true) p s
  | MTryReadMut, VProxy a _ => start_fop a (FPRead true true) p s
  | MLazyInit, VProxy a _ => start_fop a FPInit p s
  | MStore, VProxy a o =>
      update s p (VProxy a (Some x)) (fun s' =>
        Ok (RV (match o with Some w => VSome w | None => VNone end)) s')
  | _, _ => Stuck
  end.
Definition meth1 (m : meth) (r : rv) (x : val) (s : st) : out :=
  match auto r with
  | RP p => match get_at (fld s) p with Some v => place1 m p v x s | None => Stuck end
  | RV _ => Stuck
  end.

(** Methods taking a closure [k]: Option::or_else, unwrap_or_else, OnceCell::get_or_init,
    get_or_try_init (plain.rs:20-27). *)
Definition meth_fn (m : meth) (r : rv) (s : st) (k : st -> out) : out :=
  match m, r with
  | MOrElse, RV (VSome v) => Ok (RV (VSome v)) s
  | MOrElse, RV VNone => k s
  | MUnwrapOrElse, RV (VSome v) => Ok (RV v) s
  | MUnwrapOrElse, RV VNone => k s
  | MGetOrInit, RP p =>
      match get_at (fld s) p with
      | Some (VOnce (Some _)) => Ok (RV (VRef (p ++ [IIn])%list)) s
      | Some (VOnce None) =>
          bnd (k s) (fun r' s' =>
            match by_val r' s' with
            | Some x => update s' p (VOnce (Some x)) (fun s'' => Ok (RV (VRef (p ++ [IIn])%list)) s'')
            | None => Stuck
            end)
      | _ => Stuck
      end
  | MGetOrTryInit, RP p =>
      match get_at (fld s) p with
      | Some (VOnce (Some _)) => Ok (RV (VOk (VRef (p ++ [IIn])%list))) s
      | Some (VOnce None) =>
          bnd (k s) (fun r' s' =>
            match by_val r' s' with
            | Some (VOk x) =>
                update s' p (VOnce (Some x)) (fun s'' => Ok (RV (VOk (VRef (p ++ [IIn])%list))) s'')
            | Some (VErr e) => Ok (RV (VErr e)) s'
            | _ => Stuck
            end)
      | _ => Stuck
      end
  | _, _ => Stuck
  end.

(** Releasing temporaries: of the guards made since [s0] only those in [v] stay. *)
Fixpoint guards (v : val) : nat * bool :=
  match v with
  | VGuard true _ => (0, true)
  | VGuard false _ => (1, false)
  | VSome w | VOk w => guards w
  | _ => (0, false)
  end.
Definition settle (s0 : st) (v : val) (s : st) : st :=
  mk_st (fld s) (fst (guards v) + rd s0) (snd (guards v) || wr s0) (calls s).

(** Paths called as functions or constructors: new_default of FXProxy* (sync/fxproxy.rs:108,
    async/fxproxy.rs:123), FXRwLock*::new (sync/fxlock.rs:13), OnceCell, RefCell, Option,
    mem::replace. *)
Definition new0 (p : path) : option val :=
  match p with
  | PNone => Some VNone
  | POnceNew => Some (VOnce None)
  | PDefault => Some VDflt
  | PWrapBuilder _ _ => Some VWrap
  | _ => None
  end.
Definition new1 (p : path) (v : val) : option val :=
  match p with
  | PSome => Some (VSome v)
  | POk => Some (VOk v)
  | POnceFrom => Some (VOnce (Some v))
  | PCellFrom | PCellNew => Some (VCell v)
  | PLockNew a => Some (VLock a v)
  | PStringFrom => Some v
  | _ => None
  end.
Definition new2 (p : path) (v w : val) (s : st) : out :=
  match p, v with
  | PMemReplace, VRef q =>
      match get_at (fld s) q with
      | Some old => update s q w (fun s' => Ok (RV old) s')
      | None => Stuck
      end
  | PProxyNew a _, VWrap =>
      match w with
      | VSome x => Ok (RV (VProxy a (Some x))) s
      | VNone => Ok (RV (VProxy a None)) s
      | _ => Stuck
      end
  | _, _ => Stuck
  end.

Definition vars := list (string * val).
Fixpoint find_var (l : vars) (x : string) : option val :=
  match l with
  | [] => None
  | (y, v) :: t => if String.eqb x y then Some v else find_var t x
  end.
Definition lift (o : option val) (s : st) : out :=
  match o with Some v => Ok (RV v) s | None => Stuck end.
(** Evaluate and use by value. *)
Definition val_of (o : out) (k : val -> st -> out) : out :=
  bnd o (fun r s => match by_val r s with Some v => k v s | None => Stuck end).

(** Evaluation of the fragment emitted by plain.rs, sync.rs, codegen_trait.rs (RustAst.v),
    left to right, [?] leaving the method. *)
Fixpoint eval (rho : vars) (e : expr) (s : st) {struct e} : out :=
  match e with
  | EVar x => lift (find_var rho x) s
  | EFld _ => Ok (RP []) s
  | EM0 r m => bnd (eval rho r s) (fun q s1 => meth0 m q s1)
  | EM1 r m (EFn0 b) => bnd (eval rho r s) (fun q s1 => meth_fn m q s1 (fun s2 => eval rho b s2))
  | EM1 r m a =>
      bnd (eval rho r s) (fun q s1 => val_of (eval rho a s1) (fun x s2 => meth1 m q x s2))
  | EM2 r MMapOrElse (EFn0 d) (EFn1 x b) =>
      val_of (eval rho r s) (fun v s1 =>
        match v with
        | VSome w => eval ((x, w) :: rho) b s1
        | VNone => eval rho d s1
        | _ => Stuck
        end)
  | EM2 _ _ _ _ => Stuck
  | EC0 p => lift (new0 p) s
  | EC1 p a => val_of (eval rho a s) (fun v s1 => lift (new1 p v) s1)
  | EC2 p a b => val_of (eval rho a s) (fun v s1 => val_of (eval rho b s1) (fun w s2 => new2 p v w s2))
  | ERef a | EMut a =>
      bnd (eval rho a s) (fun q s1 =>
        match q with
        | RP p => Ok (RV (VRef p)) s1
        | RV v => Ok (RV v) s1
        end)
  | EDeref a =>
      val_of (eval rho a s) (fun v s1 =>
        match v with VRef p | VGuard _ p => Ok (RP p) s1 | _ => Stuck end)
  | ETry a =>
      val_of (eval rho a s) (fun v s1 =>
        match v with VOk w => Ok (RV w) s1 | VErr e' => Ret (VErr e') s1 | _ => Stuck end)
  | EAwait a =>
      val_of (eval rho a s) (fun v s1 => match v with VFut o p => run_fop o p s1 | _ => Stuck end)
  | ELet _ x a k =>
      val_of (eval rho a s) (fun v s1 => eval ((x, v) :: rho) k (settle s v s1))
  | ESeq a k => bnd (eval rho a s) (fun _ s1 => eval rho k (settle s VUnit s1))
  | EFn0 _ | EFn1 _ _ => Stuck
  | EIf c a b =>
      val_of (eval rho c s) (fun v s1 =>
        match v with
        | VBool true => eval rho a (settle s VUnit s1)
        | VBool false => eval rho b (settle s VUnit s1)
        | _ => Stuck
        end)
  | EIfSome x a b c =>
      val_of (eval rho a s) (fun v s1 =>
        match v with
        | VSome w => eval ((x, w) :: rho) b s1
        | VNone => eval rho c s1
        | _ => Stuck
        end)
  | EAssign _ a k => val_of (eval rho a s) (fun v s1 => eval rho k (put_fld s1 v))
  | EUser t _ => Ok (RV (VT (user t))) s
  end.

(** ** Calling a method *)
Inductive mres := MVal (v : val) (s : st) | MPanic (s : st) | MBlock (s : st) | MStuck.
Definition finish (s0 : st) (o : out) : mres :=
  match o with
  | Ok r s => match by_val r s with Some v => MVal v (settle s0 v s) | None => MStuck end
  | Ret v s => MVal v (settle s0 v s)
  | Panic s => MPanic (settle s0 VUnit s)
  | Block s => MBlock (settle s0 VUnit s)
  | Stuck => MStuck
  end.
Definition arg_value (t : option ty) (n : nat) : vars :=
  match t with
  | Some TIntoT => [("value", VInto n)]
  | Some _ => [("value", VT n)]
  | None => []
  end.
Definition call (m : mdecl) (n : nat) (s : st) : mres :=
  finish s (eval (("self", VSelf) :: arg_value (m_arg m) n) (m_body m) s).

(** ** Values for the storage of a field of a known type

    Default of the field types: plain.rs:40-61 types use the std impls, FXRwLockSync
    derives it (sync/fxlock.rs:8). *)
Fixpoint of_default (t : ty) : option val :=
  match t with
  | TT => Some (VT dflt)
  | TOpt _ => Some VNone
  | TOnce _ => Some (VOnce None)
  | TCell u => option_map VCell (of_default u)
  | TLock a u => option_map (VLock a) (of_default u)
  | _ => None
  end.
Fixpoint coerce (t : ty) (v : val) : option val :=
  match v with
  | VDflt => of_default t
  | VCell w => match t with TCell u => option_map VCell (coerce u w) | _ => None end
  | VLock a w => match t with TLock b u => if Bool.eqb a b then option_map (VLock a) (coerce u w) else None
                            | _ => None end
  | VSome w => match t with TOpt u => option_map VSome (coerce u w) | _ => None end
  | _ => Some v
  end.
(** Evaluate an expression for the field, the storage named in it being [v]: the
    expressions of build() (codegen_trait.rs:255-260), of Default and of the shadow
    conversions (codegen/serde.rs). *)
Definition run_value (t : ty) (e : expr) (v : val) : option (val * val) + unit :=
  match eval [] e (mk_st v 0 false 0) with
  | Ok r s => match by_val r s with
              | Some x => match coerce t x with Some y => inl (Some (y, fld s)) | None => inr tt end
              | None => inr tt
              end
  | Panic _ => inl None
  | _ => inr tt
  end.
End Run.
