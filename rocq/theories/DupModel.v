(** Clone, PartialEq and Debug as user code derives them for a struct: field by field, in the
    order of declaration, by the impls of the types that the fields have.  One thread; the
    impls for async fields are called outside of a runtime (C62 has the panic inside). *)
From Coq Require Import List Bool String Arith.
From Verif Require Import ProxyTypes ArgsModel CtxModel RustAst RustSem CommonGen StructGen FieldSpec FieldRun DupSpec.
Import ListNotations.

(** Clone: OnceCell and RefCell of std (RefCell: "Panics if the value is currently mutably
    borrowed"); sync/fxlock.rs:63-71 and async/fxlock.rs:71-79 (value under a read lock);
    sync/fxproxy.rs:243-257 and async/fxproxy.rs:251-265 (value and builder under read locks;
    nobody writes the builder here).  plain.rs:40-61 and sync.rs:179-197 have the types. *)
Definition clone_field (s : st) : option (upshot val) :=
  match fld s with
  | VT n => Some (Gives (VT n))
  | VNone => Some (Gives VNone)
  | VSome v => Some (Gives (VSome v))
  | VOnce o => Some (Gives (VOnce o))
  | VCell v => Some (if wr s then Breaks else Gives (VCell v))
  | VLock a v => Some (if wr s then Hangs else Gives (VLock a v))
  | VProxy a o => Some (if wr s then Hangs else Gives (VProxy a o))
  | _ => None
  end.
(** Equality of contents (T, Option<T>). *)
Fixpoint val_eqb (a b : val) : option bool :=
  match a, b with
  | VT x, VT y => Some (Nat.eqb x y)
  | VNone, VNone => Some true
  | VSome x, VSome y => val_eqb x y
  | VSome _, VNone | VNone, VSome _ => Some false
  | _, _ => None
  end.
Definition opt_eqb (a b : option val) : option bool :=
  match a, b with
  | Some x, Some y => val_eqb x y
  | None, None => Some true
  | _, _ => Some false
  end.
(** PartialEq: OnceCell and RefCell of std (RefCell: "Panics if the value in either RefCell is
    currently mutably borrowed"); sync/fxlock.rs:23-33, async/fxlock.rs:33-43,
    sync/fxproxy.rs:259-269: own lock first, then the other's.  FXProxyAsync has none: such a
    struct cannot derive it ([None]). *)
Definition eq_field (s t : st) : option (upshot bool) :=
  match fld s, fld t with
  | VCell a, VCell b => if wr s || wr t then Some Breaks else option_map Gives (val_eqb a b)
  | VLock x a, VLock y b => if Bool.eqb x y then if wr s || wr t then Some Hangs else option_map Gives (val_eqb a b) else None
  | VProxy false a, VProxy false b => if wr s || wr t then Some Hangs else option_map Gives (opt_eqb a b)
  | VOnce a, VOnce b => option_map Gives (opt_eqb a b)
  | a, b => option_map Gives (val_eqb a b)
  end.
(** Debug: sync/fxproxy.rs:89-101 and async/fxproxy.rs:103-115 lock for reading;
    sync/fxlock.rs:73-80, async/fxlock.rs:81-88 and RefCell only try to and print a mark
    ([Gives None]) if they cannot. *)
Definition fmt_content (v : val) : option (option nat) :=
  match v with VT n => Some (Some n) | VNone => Some None | VSome (VT n) => Some (Some n) | _ => None end.
Definition fmt_opt (o : option val) : option (option nat) :=
  match o with None => Some None | Some v => fmt_content v end.
Definition fmt_field (s : st) : option (upshot (option (option nat))) :=
  match fld s with
  | VOnce o => option_map (fun k => Gives (Some k)) (fmt_opt o)
  | VCell v | VLock _ v => if wr s then Some (Gives None) else option_map (fun k => Gives (Some k)) (fmt_content v)
  | VProxy _ o => if wr s then Some Hangs else option_map (fun k => Gives (Some k)) (fmt_opt o)
  | v => option_map (fun k => Gives (Some k)) (fmt_content v)
  end.
(** The derives of std for the struct as StructGen.v emits it (codegen_trait.rs:287-321); [None]: does not compile. *)
Fixpoint impl_clone (ius : list ist) : option (upshot (list val)) :=
  match ius with
  | [] => Some (Gives [])
  | iu :: t =>
      match clone_field (i_st iu) with
      | Some (Gives v) => option_map (fun r => after r (fun vs => Gives (v :: vs))) (impl_clone t)
      | Some Breaks => Some Breaks
      | Some Hangs => Some Hangs
      | None => None
      end
  end.
Fixpoint impl_eq (ius jus : list ist) : option (upshot bool) :=
  match ius, jus with
  | iu :: t, ju :: t' =>
      match eq_field (i_st iu) (i_st ju) with
      | Some (Gives true) => impl_eq t t'
      | Some r => Some r
      | None => None
      end
  | _, _ => Some (Gives true)
  end.
Fixpoint impl_fmt (ius : list ist) : option (upshot (list (option (option nat)))) :=
  match ius with
  | [] => Some (Gives [])
  | iu :: t =>
      match fmt_field (i_st iu) with
      | Some (Gives v) => option_map (fun r => after r (fun vs => Gives (v :: vs))) (impl_fmt t)
      | Some Breaks => Some Breaks
      | Some Hangs => Some Hangs
      | None => None
      end
  end.
