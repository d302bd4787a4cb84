(** A user of the emitted methods of one field: what is observed of their results, and
    sequences of calls with guards kept, used and dropped in between. *)
From Coq Require Import List Bool String Arith.
From Verif Require Import ProxyTypes ArgsModel RustAst RustSem FieldSpec.
Import ListNotations.
Open Scope string_scope.

(** How a field of a given type (plain.rs:40-61, sync.rs:179-213) stores its content;
    [None]: it cannot. *)
Definition opt_val (o : option nat) : val :=
  match o with Some n => VSome (VT n) | None => VNone end.
Fixpoint rep (t : ty) (o : option nat) : option val :=
  match t with
  | TT => option_map VT o
  | TOpt TT => Some (opt_val o)
  | TOnce TT => Some (VOnce (option_map VT o))
  | TCell u => option_map VCell (rep u o)
  | TLock a u => option_map (VLock a) (rep u o)
  | TProxy a _ => Some (VProxy a (option_map VT o))
  | _ => None
  end.
(** What the caller of a method emitted by plain.rs or sync.rs sees. *)
Definition see_content (v : val) : option answer :=
  match v with
  | VT n => Some (AnVal n)
  | VNone => Some (AnOpt None)
  | VSome (VT n) => Some (AnOpt (Some n))
  | VProxy _ _ => Some AnWriter
  | _ => None
  end.
Definition see_at (s : st) (p : path_in) : option answer :=
  match get_at (fld s) p with Some v => see_content v | None => None end.
Fixpoint see (s : st) (v : val) : option answer :=
  match v with
  | VBool b => Some (AnBool b)
  | VErr e => Some (AnErr e)
  | VOk w => see s w
  | VRef p | VGuard _ p => see_at s p
  | VSome (VRef p) => match see_at s p with Some (AnVal n) => Some (AnOpt (Some n)) | _ => None end
  | _ => see_content v
  end.


(** A guard in a result that lives on with it; a handle in a result. *)
Fixpoint kept (v : val) : option (bool * path_in) :=
  match v with VGuard w p => Some (w, p) | VOk u => kept u | _ => None end.
Fixpoint grip (v : val) : option path_in :=
  match v with VGuard _ p | VRef p => Some p | VOk u => grip u | _ => None end.
Definition release (s : st) (w : bool) : st :=
  if w then mk_st (fld s) (rd s) false (calls s) else mk_st (fld s) (pred (rd s)) (wr s) (calls s).
(** Assigning through a handle; [store] or [clear] for the write guard of a lazy field
    (sync/fxproxy.rs:232-240). *)
Definition assign_at (s : st) (p : path_in) (x : option nat) : option st :=
  match get_at (fld s) p, x with
  | Some (VT _), Some n => option_map (put_fld s) (set_at (fld s) p (VT n))
  | Some (VSome _ | VNone), Some n => option_map (put_fld s) (set_at (fld s) p (VSome (VT n)))
  | Some (VSome _ | VNone), None => option_map (put_fld s) (set_at (fld s) p VNone)
  | Some (VProxy a _), o => option_map (put_fld s) (set_at (fld s) p (VProxy a (option_map VT o)))
  | _, _ => None
  end.

Definition hkind_eqb (a b : hkind) : bool :=
  match a, b with
  | KAccessor, KAccessor | KAccessorMut, KAccessorMut | KSetter, KSetter | KReader, KReader
  | KWriter, KWriter | KClearer, KClearer | KPredicate, KPredicate | KBuilder, KBuilder
  | KLazy, KLazy => true
  | _, _ => false
  end.
Definition find_method (k : hkind) (ms : list mdecl) : option mdecl :=
  find (fun m => hkind_eqb (m_kind m) k) ms.

Section User.
Variable bld : nat -> outcome nat nat.
Variables fallible alive : bool.
Variable dflt : nat.
Variable user : string -> nat.
Variable ms : list mdecl.

(** The struct and the guards kept, with what they point to. *)
Record ist := mk_ist { i_st : st; i_guards : list (bool * path_in) }.
Definition drop_kept (s : st) (v : val) : st :=
  match kept v with Some (w, _) => release s w | None => s end.
Definition impl_act (a : act) (u : ist) : option (obs * ist) :=
  match a with
  | ACall k n us =>
      match find_method k ms with
      | None => None
      | Some m =>
          match call bld fallible alive dflt user m n (i_st u) with
          | MVal v s =>
              match see s v with
              | None => None
              | Some an =>
                  match us with
                  | Keep => Some (ORet an, mk_ist s (i_guards u ++
                              match kept v with Some h => [h] | None => [] end))
                  | Release => Some (ORet an, mk_ist (drop_kept s v) (i_guards u))
                  | Assign x =>
                      match grip v with
                      | None => Some (ORet an, mk_ist (drop_kept s v) (i_guards u))
                      | Some p =>
                          match assign_at s p x with
                          | Some s' => Some (ORet an, mk_ist (drop_kept s' v) (i_guards u))
                          | None => None
                          end
                      end
                  end
              end
          | MPanic s => Some (OPanic, mk_ist s (i_guards u))
          | MBlock s => Some (OWait, mk_ist s (i_guards u))
          | MStuck => None
          end
      end
  | APeek i =>
      match nth_error (i_guards u) i with
      | Some (_, p) => option_map (fun an => (ORet an, u)) (see_at (i_st u) p)
      | None => None
      end
  | AAssign i x =>
      match nth_error (i_guards u) i with
      | Some (_, p) => option_map (fun s => (ODone, mk_ist s (i_guards u))) (assign_at (i_st u) p x)
      | None => None
      end
  | ADrop i =>
      match nth_error (i_guards u) i with
      | Some (w, _) => Some (ODone, mk_ist (release (i_st u) w) (drop_nth (i_guards u) i))
      | None => None
      end
  end%list.
(** Nothing kept yet. *)
Definition fresh (w : val) (builds : nat) : ist := mk_ist (mk_st w 0 false builds) [].
Fixpoint impl_run (l : list act) (u : ist) : option (list obs * ist) :=
  match l with
  | [] => Some ([], u)
  | a :: t =>
      match impl_act a u with
      | Some (OWait, u') => Some ([OWait], u')
      | Some (o, u') =>
          match impl_run t u' with Some (os, u'') => Some (o :: os, u'') | None => None end
      | None => None
      end
  end.
End User.
