(** Send and Sync of what the macro makes: the types of the fields and the futures of the
    async methods, and the bounds that the library puts on the struct. *)
From Coq Require Import List Bool String.
From Verif Require Import ArgsModel CtxModel RustAst CommonGen StructGen AutoSpec.
Import ListNotations.
Open Scope string_scope.

(** ** What the compiler finds *)
(** Send and Sync of a type, given those of the struct.  The rules are in the documentation
    of std (OnceCell, RefCell, Option, Rc, Arc, Weak, references), parking_lot and tokio (RwLock
    and guards). *)
Fixpoint traits (self : bool * bool) (t : rty) : bool * bool :=
  match t with
  | RLeaf sd sh => (sd, sh)
  | RSelf => self
  | RArc t | RWrite t => let p := traits self t in (fst p && snd p, fst p && snd p)
  | RRc _ => (false, false)
  | ROpt t => traits self t
  | RCell t => (fst (traits self t), false)
  | RLock t => let p := traits self t in (fst p, fst p && snd p)
  | RRef t => (snd (traits self t), snd (traits self t))
  | RRead t => let p := traits self t in (snd p, fst p && snd p)
  | RBoth a b => let p := traits self a in let q := traits self b in (fst p && fst q, snd p && snd q)
  end.
(** Those of the struct itself: assumed, then checked against what it is made of. *)
Definition self_traits (body : rty) : bool * bool := traits (traits (true, true) body) body.

(** ** The library *)
(** FXBuilderInfallible, FXBuilderFallible: a function pointer (fieldx/src/sync/fxproxy.rs:19-21,
    44-46) or a boxed closure that is Send and Sync (fieldx/src/async/fxproxy.rs:14, 23-25,
    51-53), whatever the types of struct, value and error. *)
Definition builder_rty : rty := RLeaf true true.
(** fieldx/src/sync/fxproxy.rs:68-75, fieldx/src/async/fxproxy.rs:82-89: value, is_set, builder. *)
Definition proxy_rty (d : rty) : rty :=
  RBoth (RLock (ROpt d)) (RBoth (RLeaf true true) (RLock (ROpt builder_rty))).
(** The types of fields: fieldx/src/sync/fxlock.rs:8-9 and fieldx/src/async/fxlock.rs:8-9 for the
    locks, fieldx/src/lib.rs (OnceCell, RefCell).  No field has any of the types left out
    (C77_type). *)
Fixpoint rty_of (d : rty) (t : ty) : rty :=
  match t with
  | TT => d
  | TOpt t => ROpt (rty_of d t)
  | TOnce t | TCell t => RCell (rty_of d t)
  | TLock _ t => RLock (rty_of d t)
  | TProxy _ _ => proxy_rty d
  | _ => RLeaf false false
  end.

(** ** The struct *)
Section Struct.
  Variable c : sctx.
  (** The types that the user has declared. *)
  Variable decl : string -> rty.
  (** codegen.rs:149-160: the type of the hidden field; see [weak_type] in CtxModel.v. *)
  Definition hidden_rty : rty :=
    if String.eqb (weak_type c) "::std::sync::Weak" then RArc RSelf else RRc RSelf.
  (** codegen.rs:253-280: what myself() returns; see [rc_type] in CtxModel.v. *)
  Definition myself_rty : rty :=
    if String.eqb (rc_type c) "::std::sync::Arc" then RArc RSelf else RRc RSelf.
  Definition field_rty (d : rty) (f : field) : rty :=
    match field_type c f with GOk t => rty_of d t | _ => RLeaf false false end.
  Definition bundle (l : list rty) : rty := fold_right RBoth (RLeaf true true) l.
  (** codegen.rs:467-520 (finalize): the fields, hidden one first; see [all_fields] in
      CtxModel.v. *)
  Definition body_rty : rty :=
    bundle (map (field_rty hidden_rty) (extra_fields c) ++
            map (fun f => field_rty (decl (f_ident f)) f) (c_input_fields c))%list.

  (** async/fxproxy.rs:82-84 asks of the wrapper to be FXBuilderWrapperAsync, which it is if the
      struct is Sync (40-42, 71-73).  No other container asks anything of the struct but to be
      an FXStruct. *)
  Definition bounds_met : bool :=
    forallb (fun f => match field_type c f with
                      | GOk (TProxy true _) => snd (self_traits body_rty)
                      | _ => true
                      end) (all_fields c).

  (** ** The futures of async methods *)
  Section Future.
    Variables (f : field) (passed : rty).   (* [passed]: the type the caller gives to a setter with [into] *)
    Let d := decl (f_ident f).
    (** async/fxproxy.rs:153-166 (read_or_init), all that is there at some await: self and owner,
        the guard of the value, the guard of the builder, the builder, the future it returns. *)
    Definition init_rty : rty :=
      bundle [RRef (proxy_rty d); RRef RSelf; RRef (RLock (ROpt d)); RWrite (ROpt d);
              RRef (RLock (ROpt builder_rty)); RRead (ROpt builder_rty); RRef builder_rty; RLeaf true false].
    (** What a call on the field holds while it is awaited: async/fxproxy.rs:171-209 (read,
        read_mut, try_read, try_read_mut), 212-214 (write), 222-225 (clear); async/fxlock.rs:23-30
        (read, write). *)
    Definition callee_rty (m : meth) : rty :=
      match field_type c f with
      | GOk (TProxy _ _) =>
          match m with
          | MRead | MReadMut | MTryRead | MTryReadMut => init_rty
          | _ => bundle [RRef (proxy_rty d); RRef (RLock (ROpt d))]
          end
      | _ => RRef (field_rty d f)
      end.
    (** codegen_trait.rs:530-545 (maybe_ref_counted_self): [&self.myself().expect(..)] lives as
        long as the call, else there is just the reference. *)
    Definition kept (a : expr) : rty :=
      match a with
      | ERef (EM0 (EM0 _ MMyself) MExpect) => RBoth myself_rty (RRef RSelf)
      | _ => RRef RSelf
      end.
    (** All that is there at the awaits of a body. *)
    Fixpoint live (e : expr) : rty :=
      match e with
      | EAwait (EM0 (EFld _) m) => callee_rty m
      | EAwait (EM1 (EFld _) m a) => RBoth (callee_rty m) (kept a)
      | EAwait _ => RLeaf false false
      | EM0 e _ | ERef e | EMut e | EDeref e | ETry e | EC1 _ e => live e
      | EM1 e _ a | EC2 _ e a | ELet _ _ e a | ESeq e a => RBoth (live e) (live a)
      | _ => RLeaf true true
      end.
    (** The future of an async method: its parameters, and what is there at the awaits. *)
    Definition arg_rty (t : ty) : rty := match t with TIntoT => passed | _ => rty_of d t end.
    Definition self_rty (s : selfmode) : rty :=
      match s with SRef => RRef RSelf | SMut | SOwn => RSelf end.
    Definition future_rty (m : mdecl) : rty :=
      bundle [self_rty (m_self m); match m_arg m with Some t => arg_rty t | None => RLeaf true true end; live (m_body m)].
  End Future.
End Struct.
