(** The fragment of Rust that the field generators emit (fieldx_derive/src/codegen/
    plain.rs, sync.rs, codegen_trait.rs), as abstract syntax.  The token streams built
    with quote! are represented by the expression they parse to.  Types are written
    relative to one field: [TT] is the type declared by the user. *)
From Coq Require Import String.
From Verif Require Import ArgsModel.

(** The boolean on lock and proxy types tells the async flavour (tokio) from the sync
    one (parking_lot): codegen/sync/impl_sync.rs, codegen/sync/impl_async.rs. *)
Inductive ty :=
| TT                              (* the declared type *)
| TIntoT                          (* the generic parameter FXVALINTO: Into<T> *)
| TBool | TUnit
| TSelf                           (* the struct *)
| TRc                             (* Rc<Self> / Arc<Self> *)
| TOpt (t : ty)
| TRef (t : ty) | TMut (t : ty)
| TRes (t : ty)                   (* Result<t, E> with the fallible error type *)
| TOnce (t : ty)                  (* fieldx::OnceCell *)
| TCell (t : ty)                  (* fieldx::RefCell *)
| TCellR (t : ty) | TCellW (t : ty)          (* Ref, RefMut *)
| TLock (a : bool) (t : ty)       (* FXRwLockSync / FXRwLockAsync *)
| TLockR (a : bool) (t : ty)      (* RwLockReadGuard *)
| TLockW (a : bool) (t : ty)      (* RwLockWriteGuard *)
| TMapR (t : ty)                  (* parking_lot MappedRwLockReadGuard *)
| TMapW (a : bool) (t : ty)       (* MappedRwLockWriteGuard / RwLockMappedWriteGuard *)
| TWrap (a : bool) (fallible : bool)    (* FXBuilder(In)Fallible<Struct, T> *)
| TProxy (a : bool) (fallible : bool)   (* FXProxySync / FXProxyAsync over that *)
| TGuard (a : bool) (fallible : bool)   (* FXWrLockGuardSync / Async *)
| TTry (t : ty)                   (* Result<t, TryLockError> *)
| TFut (t : ty)                   (* impl Future<Output = t> *)
| TFn (t : ty)                    (* a closure without arguments *)
| TAny.                           (* still to be inferred: None, Default::default() *)

Inductive meth :=
| MClone | MAsRef | MCopied | MCloned | MTake | MReplace | MGet | MGetMut | MUnwrap
| MIsSome | MIsNone | MGetOrInit | MGetOrTryInit | MBorrow | MBorrowMut | MSet
| MRead | MTryRead | MReadMut | MTryReadMut | MWrite | MStore | MClear | MIsSet
| MInto | MOrElse | MUnwrapOrElse | MMapOrElse | MIntoInner | MLazyInit
| MBuild                          (* the user's build_<field> *)
| MMyself | MExpect.

Inductive path :=
| PSome | PNone | POk
| POnceFrom | POnceNew | PCellFrom | PCellNew
| PLockNew (a : bool)
| PProxyNew (a : bool) (fallible : bool)   (* <FXProxy..<..>>::new_default *)
| PWrapBuilder (a : bool) (fallible : bool)(* <wrapper>::new(<Struct>::build_x) *)
| PMemReplace
| PStringFrom
| PDefault.                       (* Default::default() *)

Inductive expr :=
| EVar (x : string)
| EFld (x : string)               (* x.<field ident> *)
| EM0 (e : expr) (m : meth)
| EM1 (e : expr) (m : meth) (a : expr)
| EM2 (e : expr) (m : meth) (a b : expr)
| EC0 (p : path)
| EC1 (p : path) (a : expr)
| EC2 (p : path) (a b : expr)
| ERef (e : expr) | EMut (e : expr) | EDeref (e : expr)
| ETry (e : expr)                 (* e? *)
| EAwait (e : expr)
| ELet (mut : bool) (x : string) (e k : expr)
| ESeq (e k : expr)
| EFn0 (e : expr)                 (* || e *)
| EFn1 (x : string) (e : expr)    (* |x| e *)
| EIf (c a b : expr)
| EIfSome (x : string) (e a b : expr)
| EAssign (x : string) (e k : expr) (* x.<field ident> = e; k *)
| EUser (text : string) (self_fixed : bool). (* the user's default expression *)

(** [&self], [&mut self], [mut self]. *)
Inductive selfmode := SRef | SMut | SOwn.

(** A generated method. *)
Record mdecl := mk_mdecl {
  m_kind : hkind;
  m_name : string;
  m_vis : string;
  m_attrs : option (list string);
  m_async : bool;
  m_self : selfmode;
  m_arg : option ty;
  m_ret : ty;
  m_body : expr
}.

(** Outcome of a generator: tokens, a compile error reported through darling, or a
    panic of the macro itself. *)
Inductive gres (A : Type) :=
| GOk (a : A)
| GErr (msg : string)
| GPanic (msg : string).
Arguments GOk {A}. Arguments GErr {A}. Arguments GPanic {A}.

Definition gbind {A B} (r : gres A) (k : A -> gres B) : gres B :=
  match r with GOk a => k a | GErr m => GErr m | GPanic m => GPanic m end.
Notation "'do' x <- r ; k" := (gbind r (fun x => k)) (at level 200, x name, r at level 100, k at level 200).
