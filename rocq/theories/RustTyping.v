(** A type checker for the fragment of RustAst.v, after the signatures of std, once_cell,
    parking_lot, tokio and fieldx (fieldx/src/sync/fxproxy.rs:103-245,
    fieldx/src/async/fxproxy.rs:118-250, fieldx/src/sync/fxlock.rs:11-48,
    fieldx/src/async/fxlock.rs:9-60).  It covers types, auto-dereferencing of method
    receivers, mutability of places, moves out of borrowed places, [?] and [.await];
    it does not cover lifetimes and trait bounds other than Clone, Copy and Default of
    the declared type, which is opaque otherwise. *)
From Coq Require Import List Bool String.
From Verif Require Import ArgsModel RustAst.
Import ListNotations.
Open Scope string_scope.

Fixpoint ty_eqb (a b : ty) : bool :=
  match a, b with
  | TT, TT | TIntoT, TIntoT | TBool, TBool | TUnit, TUnit | TSelf, TSelf | TRc, TRc
  | TAny, TAny => true
  | TOpt x, TOpt y | TRef x, TRef y | TMut x, TMut y | TRes x, TRes y | TOnce x, TOnce y
  | TCell x, TCell y | TCellR x, TCellR y | TCellW x, TCellW y | TMapR x, TMapR y
  | TTry x, TTry y | TFut x, TFut y | TFn x, TFn y => ty_eqb x y
  | TLock p x, TLock q y | TLockR p x, TLockR q y | TLockW p x, TLockW q y
  | TMapW p x, TMapW q y => Bool.eqb p q && ty_eqb x y
  | TWrap p x, TWrap q y | TProxy p x, TProxy q y | TGuard p x, TGuard q y =>
      Bool.eqb p q && Bool.eqb x y
  | _, _ => false
  end.

(** Types with a Default implementation. *)
Definition defaultable (t : ty) : bool :=
  match t with
  | TT | TOpt _ | TOnce _ | TBool | TUnit => true
  | TCell (TT | TOpt _) | TLock _ (TT | TOpt _) => true
  | _ => false
  end.

(** [fits a b]: a value of type [a] can be used where [b] is expected, [TAny] inside [a]
    being filled in. *)
Fixpoint fits (a b : ty) : bool :=
  match a, b with
  | TAny, _ => defaultable b
  | TOpt TAny, TOpt _ => true
  | TOnce TAny, TOnce _ => true
  | TOpt x, TOpt y | TRef x, TRef y | TRes x, TRes y | TCell x, TCell y
  | TOnce x, TOnce y => fits x y
  | TLock p x, TLock q y => Bool.eqb p q && fits x y
  | _, _ => ty_eqb a b
  end.

(** How an expression may be used: a value of its own; an owned place; a borrowed
    place.  The flag tells whether the place may be borrowed mutably. *)
Inductive pk := KVal | KOwn (m : bool) | KBor (m : bool).
Definition mutable (k : pk) : bool :=
  match k with KVal => true | KOwn m => m | KBor m => m end.

Record env := mk_env {
  e_vars : list (string * (ty * bool));
  e_fld : string -> option (ty * pk);       (* x.<field ident> *)
  e_ret : ty;                               (* return type, for [?] *)
  e_async : bool;
  e_copy : bool;                            (* the declared type is Copy *)
  e_clone : bool;                           (* the declared type is Clone *)
  e_builder : ty;                           (* what the user's build_<field> returns *)
  e_user : string -> bool -> bool           (* is the user's expression meaningful here *)
}.
Definition bind (E : env) (x : string) (t : ty) (m : bool) : env :=
  mk_env ((x, (t, m)) :: e_vars E) (e_fld E) (e_ret E) (e_async E) (e_copy E) (e_clone E)
    (e_builder E) (e_user E).

Fixpoint lookup (l : list (string * (ty * bool))) (x : string) : option (ty * bool) :=
  match l with
  | [] => None
  | (y, v) :: t => if String.eqb x y then Some v else lookup t x
  end.

Fixpoint copyable (E : env) (t : ty) : bool :=
  match t with
  | TT => e_copy E
  | TOpt u => copyable E u
  | TRef _ | TBool | TUnit => true
  | _ => false
  end.
Fixpoint clonable (E : env) (t : ty) : bool :=
  match t with
  | TT => e_clone E || e_copy E
  | TOpt u => clonable E u
  | TRef _ | TBool | TUnit | TRc => true
  | _ => false
  end.

(** Using a place by value: moving out of a borrowed place needs Copy. *)
Definition as_val (E : env) (r : ty * pk) : option ty :=
  match snd r with
  | KBor _ => if copyable E (fst r) then Some (fst r) else None
  | _ => Some (fst r)
  end.

(** One step of dereferencing. *)
Definition deref (r : ty * pk) : option (ty * pk) :=
  match fst r with
  | TRef u => Some (u, KBor false)
  | TMut u => Some (u, KBor true)
  | TCellR u | TLockR _ u | TMapR u => Some (u, KBor false)
  | TCellW u | TLockW _ u | TMapW _ u => Some (u, KBor (mutable (snd r)))
  | TRc => Some (TSelf, KBor false)
  | _ => None
  end.

Inductive need := NRef | NMut | NOwn.
Definition fut (a : bool) (t : ty) : ty := if a then TFut t else t.
Definition mapped_r (a : bool) (t : ty) : ty := if a then TLockR true t else TMapR t.
(** An argument that coerces to [&Self]. *)
Definition owner_arg (t : ty) : bool :=
  match t with
  | TRef TSelf | TRef (TRef TSelf) | TRef TRc | TRef (TMut TSelf) => true
  | _ => false
  end.

(** Inherent and trait methods by receiver type. *)
Definition msig0 (E : env) (t : ty) (m : meth) : option (need * ty) :=
  match m, t with
  | MClone, TT => if e_clone E || e_copy E then Some (NRef, TT) else None
  | MClone, TOpt u => if clonable E u then Some (NRef, t) else None
  | MClone, TRc => Some (NRef, TRc)
  | MAsRef, TOpt u => Some (NRef, TOpt (TRef u))
  | MCopied, TOpt (TRef u) => if copyable E u then Some (NOwn, TOpt u) else None
  | MCloned, TOpt (TRef u) => if clonable E u then Some (NOwn, TOpt u) else None
  | MTake, (TOpt _) => Some (NMut, t)
  | MTake, (TOnce u) => Some (NMut, TOpt u)
  | MTake, (TCell u) => if defaultable u then Some (NRef, u) else None
  | MGet, TOnce u => Some (NRef, TOpt (TRef u))
  | MGetMut, TOnce u => Some (NMut, TOpt (TMut u))
  | (MUnwrap | MExpect), TOpt u => Some (NOwn, u)
  | (MUnwrap | MExpect), TRes u => Some (NOwn, u)
  | (MIsSome | MIsNone), TOpt _ => Some (NRef, TBool)
  | MBorrow, TCell u => Some (NRef, TCellR u)
  | MBorrowMut, TCell u => Some (NRef, TCellW u)
  | MRead, TLock a u => Some (NRef, fut a (TLockR a u))
  | MWrite, TLock a u => Some (NRef, fut a (TLockW a u))
  | MTryRead, TLock false u => Some (NRef, TOpt (TLockR false u))
  | MTryRead, TLock true u => Some (NRef, TTry (TLockR true u))
  | MWrite, TProxy a f => Some (NRef, fut a (TGuard a f))
  | MClear, TProxy a f => Some (NRef, fut a (TOpt TT))
  | MClear, TGuard a f => Some (NRef, TOpt TT)
  | MIsSet, TProxy a f => Some (NRef, TBool)
  | MInto, TIntoT => Some (NOwn, TT)
  | MIntoInner, TLock _ u => Some (NOwn, u)
  | MIntoInner, TProxy _ _ => Some (NOwn, TOpt TT)
  | MIntoInner, TOnce u => Some (NOwn, TOpt u)
  | MIntoInner, TCell u => Some (NOwn, u)
  | MBuild, TSelf => Some (NRef, e_builder E)
  | MMyself, TSelf => Some (NRef, TOpt TRc)
  | _, _ => None
  end.
Definition msig1 (E : env) (t : ty) (m : meth) (a : ty) : option (need * ty) :=
  match m, t with
  | MReplace, TOpt u => if fits a u then Some (NMut, TOpt u) else None
  | MReplace, TCell u => if fits a u then Some (NRef, u) else None
  | MGetOrInit, TOnce u => if fits a (TFn u) then Some (NRef, TRef u) else None
  | MGetOrTryInit, TOnce u => if fits a (TFn (TRes u)) then Some (NRef, TRes (TRef u)) else None
  | MSet, TOnce u => if fits a u then Some (NRef, TRes TUnit) else None
  | MRead, TProxy p f => if owner_arg a then Some (NRef, fut p (mapped_r p TT)) else None
  | MReadMut, TProxy p f => if owner_arg a then Some (NRef, fut p (TMapW p TT)) else None
  | MTryRead, TProxy p true =>
      if owner_arg a then Some (NRef, fut p (TRes (mapped_r p TT))) else None
  | MTryReadMut, TProxy p true =>
      if owner_arg a then Some (NRef, fut p (TRes (TMapW p TT))) else None
  | MLazyInit, TProxy p f => if owner_arg a then Some (NRef, fut p TUnit) else None
  | MStore, TGuard _ _ => if fits a TT then Some (NMut, TOpt TT) else None
  | MOrElse, TOpt u =>
      match a with TFn b => if fits b (TOpt u) then Some (NOwn, TOpt u) else None | _ => None end
  | MUnwrapOrElse, TOpt u =>
      match a with TFn b => if fits b u then Some (NOwn, u) else None | _ => None end
  | _, _ => None
  end.

(** Find the method along the dereferencing chain (three steps are enough for the
    nesting that occurs) and check how it uses the receiver. *)
Definition use_recv (E : env) (r : ty * pk) (n : need) (t : ty) : option (ty * pk) :=
  match n with
  | NRef => Some (t, KVal)
  | NMut => if mutable (snd r) then Some (t, KVal) else None
  | NOwn => match as_val E r with Some _ => Some (t, KVal) | None => None end
  end.
Fixpoint call (n : nat) (E : env) (sig : ty -> option (need * ty)) (r : ty * pk) : option (ty * pk) :=
  match sig (fst r) with
  | Some (nd, t) => use_recv E r nd t
  | None => match n, deref r with
            | S n', Some r' => call n' E sig r'
            | _, _ => None
            end
  end.

Definition csig0 (p : path) : option ty :=
  match p with
  | PNone => Some (TOpt TAny)
  | POnceNew => Some (TOnce TAny)
  | PDefault => Some TAny
  | PWrapBuilder a f => Some (TWrap a f)
  | _ => None
  end.
Definition csig1 (p : path) (a : ty) : option ty :=
  match p with
  | PSome => Some (TOpt a)
  | POk => Some (TRes a)
  | POnceFrom => Some (TOnce a)
  | PCellFrom | PCellNew => Some (TCell a)
  | PLockNew p => Some (TLock p a)
  | PStringFrom => Some a
  | _ => None
  end.
Definition csig2 (p : path) (a b : ty) : option ty :=
  match p, a with
  | PMemReplace, TMut u => if fits b u then Some u else None
  | PProxyNew q f, TWrap q' f' =>
      if Bool.eqb q q' && Bool.eqb f f' && fits b (TOpt TT) then Some (TProxy q f) else None
  | _, _ => None
  end.

Definition join (a b : ty) : option ty :=
  if fits a b then Some b else if fits b a then Some a else None.

Definition obnd {A B} (o : option A) (k : A -> option B) : option B :=
  match o with Some a => k a | None => None end.
Notation "'let?' x := r 'in' k" := (obnd r (fun x => k)) (at level 200, x pattern).

Fixpoint chk (E : env) (e : expr) {struct e} : option (ty * pk) :=
  match e with
  | EVar x => let? v := lookup (e_vars E) x in Some (fst v, KOwn (snd v))
  | EFld x => e_fld E x
  | EM0 r m => let? q := chk E r in call 3 E (fun t => msig0 E t m) q
  | EM1 r m a =>
      let? q := chk E r in
      let? qa := chk E a in
      let? ta := as_val E qa in
      call 3 E (fun t => msig1 E t m ta) q
  | EM2 r m a (EFn1 x b) =>
      let? q := chk E r in
      let? tr := as_val E q in
      match m, tr with
      | MMapOrElse, TOpt u =>
          let? qa := chk E a in
          match fst qa with
          | TFn ta =>
              let? qb := chk (bind E x u false) b in
              let? tb := as_val E qb in
              let? t := join ta tb in
              Some (t, KVal)
          | _ => None
          end
      | _, _ => None
      end
  | EM2 _ _ _ _ => None
  | EC0 p => let? t := csig0 p in Some (t, KVal)
  | EC1 p a =>
      let? qa := chk E a in
      let? ta := as_val E qa in
      let? t := csig1 p ta in Some (t, KVal)
  | EC2 p a b =>
      let? qa := chk E a in
      let? ta := as_val E qa in
      let? qb := chk E b in
      let? tb := as_val E qb in
      let? t := csig2 p ta tb in Some (t, KVal)
  | ERef a => let? q := chk E a in Some (TRef (fst q), KVal)
  | EMut a => let? q := chk E a in if mutable (snd q) then Some (TMut (fst q), KVal) else None
  | EDeref a => let? q := chk E a in deref q
  | ETry a =>
      let? q := chk E a in
      let? t := as_val E q in
      match t, e_ret E with TRes u, TRes _ => Some (u, KVal) | _, _ => None end
  | EAwait a =>
      let? q := chk E a in
      let? t := as_val E q in
      match t with TFut u => if e_async E then Some (u, KVal) else None | _ => None end
  | ELet m x a k =>
      let? q := chk E a in
      let? t := as_val E q in
      chk (bind E x t m) k
  | ESeq a k => let? q := chk E a in chk E k
  | EFn0 a =>
      let? q := chk E a in
      let? t := as_val E q in
      Some (TFn t, KVal)
  | EFn1 _ _ => None
  | EIf c a b =>
      let? qc := chk E c in
      let? qa := chk E a in
      let? ta := as_val E qa in
      let? qb := chk E b in
      let? tb := as_val E qb in
      if ty_eqb (fst qc) TBool then let? t := join ta tb in Some (t, KVal) else None
  | EIfSome x s a b =>
      let? q := chk E s in
      let? t := as_val E q in
      match t with
      | TOpt u =>
          let? qa := chk (bind E x u false) a in
          let? ta := as_val E qa in
          let? qb := chk E b in
          let? tb := as_val E qb in
          let? t := join ta tb in Some (t, KVal)
      | _ => None
      end
  | EAssign x a k =>
      let? f := e_fld E x in
      let? q := chk E a in
      let? t := as_val E q in
      if mutable (snd f) && fits t (fst f) then chk E k else None
  | EUser s fixed => if e_user E s fixed then Some (TT, KVal) else None
  end.

(** The expression is a value of the expected type. *)
Definition has_type (E : env) (e : expr) (t : ty) : bool :=
  match chk E e with
  | Some q => match as_val E q with Some u => fits u t | None => false end
  | None => false
  end.

(** The environment of a generated method of the struct whose field has type [fty].
    [Self] is the struct there, so that user expressions are meaningful as written. *)
Definition self_place (m : selfmode) (t : ty) : ty * pk :=
  match m with SRef => (t, KBor false) | SMut => (t, KBor true) | SOwn => (t, KOwn true) end.
Definition self_var (m : selfmode) : ty * bool :=
  match m with SRef => (TRef TSelf, false) | SMut => (TMut TSelf, false) | SOwn => (TSelf, true) end.
Definition method_env (fty builder : ty) (copy clone : bool) (m : mdecl) : env :=
  mk_env (("self", self_var (m_self m)) ::
          match m_arg m with Some t => [("value", (t, false))] | None => [] end)
    (fun x => if String.eqb x "self" then Some (self_place (m_self m) fty) else None)
    (m_ret m) (m_async m) copy clone builder (fun _ _ => true).
Definition method_ok (fty builder : ty) (copy clone : bool) (m : mdecl) : bool :=
  has_type (method_env fty builder copy clone m) (m_body m) (m_ret m).

(** Values built outside methods.  [in_struct]: is [Self] the struct (impl Default,
    impl From<Shadow>) or another type (the builder)?  [uses_self]: does the field's
    default expression mention Self? *)
Definition value_env (in_struct : bool) (uses_self : bool)
    (flds : list (string * (ty * pk))) (builder : ty) : env :=
  mk_env []
    (fun x => option_map snd (find (fun p => String.eqb x (fst p)) flds))
    TUnit false false true builder
    (fun _ fixed => in_struct || fixed || negb uses_self).
