(** Independent description of which emitted methods and values are well typed, of what
    [skip] and [off] promise, and of complete struct literals. *)
From Coq Require Import List Bool String.
From Verif Require Import ArgsModel CtxModel RustAst StructGen.
Import ListNotations.

(** The user's build_<field> returns the value, or a Result of it when [fallible]. *)
Definition user_builder (fallible : bool) : ty := if fallible then TRes TT else TT.

(** What a caller asked for, in terms of effective settings (see C28). *)
Record settings := mk_settings {
  w_lazy : bool; w_optional : bool; w_inner_mut : bool; w_lock : bool;
  w_clone : bool; w_copy : bool; w_mode : accmode; w_fallible : bool; w_async : bool
}.
Definition settings_of (c : sctx) (f : field) : settings :=
  mk_settings (is_lazy c f) (is_optional c f) (is_inner_mut c f) (needs_lock c f)
    (is_clone c f) (is_copy c f) (accessor_mode c f) (is_fallible c f) (is_async c f).

(** Plain fields.  A getter by [as_ref] fits only a bare Option; a cloning getter of a
    RefCell needs the clone setting itself (it is missing for [copy(off)]); a clearer
    needs something to take from, and fails on a lazy field with [inner_mut]. *)
Definition plain_well_typed (s : settings) (k : hkind) : bool :=
  match k with
  | KAccessor =>
      match w_mode s with
      | AMAsRef => w_optional s && negb (w_lazy s) && negb (w_inner_mut s)
      | AMClone => w_lazy s || negb (w_inner_mut s) || w_clone s || w_copy s
      | _ => true
      end
  | KClearer => if w_lazy s then negb (w_inner_mut s) else w_optional s || w_inner_mut s
  | _ => true
  end.

(** Sync and async fields. *)
Definition by_value (s : settings) : bool := w_clone s || w_copy s.
Definition sync_well_typed (s : settings) (k : hkind) : bool :=
  if w_lazy s then
    match k with
    | KAccessor => negb (w_optional s && by_value s)
    | _ => true
    end
  else
    match k with
    | KAccessor =>
        if w_lock s
        then if by_value s then negb (w_fallible s) && negb (w_async s)
             else negb (w_optional s && w_fallible s)
        else by_value s || negb (w_fallible s)
    | KAccessorMut => negb (w_lock s && w_async s)
    | KReader => w_lock s && negb (w_optional s && w_fallible s)
    | KWriter => w_lock s
    | KClearer => w_optional s && w_lock s
    | KPredicate =>
        if w_lock s
        then if w_optional s then negb (w_fallible s && w_async s)
             else w_fallible s && negb (w_async s)
        else w_optional s
    | _ => true
    end.

(** The combinations for which every method a user can ask for compiles: what a
    careful reader of the documentation would write. *)
Definition ordinary_plain (s : settings) : Prop :=
  w_mode s <> AMAsRef /\
  (w_lazy s = true -> w_inner_mut s = false) /\
  (w_mode s = AMClone -> w_clone s = true).
Definition ordinary_sync (s : settings) : Prop :=
  (w_lazy s = true -> w_optional s = false) /\
  (w_lazy s = false -> w_fallible s = false) /\
  (w_optional s = true -> w_lock s = true) /\
  (w_lazy s = false -> w_async s = true -> by_value s = false).

(** A struct literal is accepted when it gives every field once, or, with a base, gives
    some fields at most once. *)
Definition complete (given : list string) (base : bool) (declared : list string) : Prop :=
  NoDup given /\ incl given declared /\ (base = false -> incl declared given).

(** A bare [default] without a value. *)
Definition bare_default (f : field) : bool :=
  f_has_default_value f && match default_value f with Some _ => false | None => true end.
Definition has_setter (c : sctx) (f : field) : bool := needs_builder c f || forced_builder f.
(** build() of a sync field repeats the default expression inside the builder type, where
    Self is another type; it is corrected only for lazy fields and for optional fields
    without a lock, and only if the field has a setter. *)
Definition self_corrected (c : sctx) (f : field) : bool :=
  has_setter c f && (is_lazy c f || (is_optional c f && negb (needs_lock c f))).

(** The declared type is Copy when its getter is to copy, Clone when it is to clone. *)
Definition type_bounds (c : sctx) (f : field) (copy clone : bool) : Prop :=
  (accessor_mode c f = AMCopy -> copy = true) /\ (accessor_mode c f = AMClone -> clone = true).

(** Nobody wrote optional(off) or lock(off). *)
Definition nothing_forced_off (c : sctx) (f : field) : Prop :=
  f_optional f <> Some false /\ s_optional (c_args c) <> Some false /\
  f_lock f <> Some false /\ s_lock (c_args c) <> Some false.

(** Does a getter with this return type hand out the value itself? *)
Fixpoint hands_out_value (t : ty) : bool :=
  match t with
  | TT => true
  | TOpt t | TRes t => hands_out_value t
  | _ => false
  end.

(** How many times a piece of emitted code asks for a clone. *)
Fixpoint clone_calls (e : expr) : nat :=
  match e with
  | EVar _ | EFld _ | EC0 _ | EUser _ _ => 0
  | EM0 e m => (match m with MClone | MCloned => 1 | _ => 0 end) + clone_calls e
  | EM1 e m a => (match m with MClone | MCloned => 1 | _ => 0 end) + clone_calls e + clone_calls a
  | EM2 e m a b =>
      (match m with MClone | MCloned => 1 | _ => 0 end) + clone_calls e + clone_calls a + clone_calls b
  | EC1 _ e | ERef e | EMut e | EDeref e | ETry e | EAwait e | EFn0 e | EFn1 _ e => clone_calls e
  | EC2 _ a b | ESeq a b | ELet _ _ a b | EAssign _ a b => clone_calls a + clone_calls b
  | EIf c a b | EIfSome _ c a b => clone_calls c + clone_calls a + clone_calls b
  end.

(** The argument of the field for this helper says [off]. *)
Definition off_argument (f : field) (k : hkind) : bool :=
  match k with
  | KAccessor => match f_accessor f with Some a => h_off (a_base a) | None => false end
  | KAccessorMut => match f_accessor_mut f with Some h => h_off h | None => false end
  | KSetter => match f_setter f with Some s => h_off (st_base s) | None => false end
  | KReader => match f_reader f with Some h => h_off h | None => false end
  | KWriter => match f_writer f with Some h => h_off h | None => false end
  | KClearer => match f_clearer f with Some h => h_off h | None => false end
  | KPredicate => match f_predicate f with Some h => h_off h | None => false end
  | KBuilder => match f_builder f with Some b => h_off (b_base b) | None => false end
  | KLazy => match f_lazy f with Some h => h_off h | None => false end
  end.

(** Serde selection.  A direction named with [off] is off; naming only the other
    direction turns this one off as well (serde(serialize) means one way). *)
Definition direction (mine other : option bool) : bool :=
  match mine with
  | Some b => b
  | None => match other with Some o => negb o | None => true end
  end.
Definition struct_serde (s : sargs) : bool :=
  match s_serde s with
  | None => false
  | Some w => negb (se_off w) &&
              negb (match se_serialize w, se_deserialize w with
                    | Some false, Some false => true | _, _ => false end)
  end.
Definition field_serde (f : field) : bool :=
  negb (f_skip f) && match f_serde f with Some w => negb (se_off w) | None => true end.
Definition field_serializes (f : field) : bool :=
  field_serde f &&
  match f_serde f with Some w => direction (se_serialize w) (se_deserialize w) | None => true end.
Definition field_deserializes (f : field) : bool :=
  field_serde f &&
  match f_serde f with Some w => direction (se_deserialize w) (se_serialize w) | None => true end.

(** The error type of a fallible field is known. *)
Definition error_known (c : sctx) (f : field) : bool :=
  is_some (or_else (f_fallible_error f) (s_fallible_error (c_args c))).
(** Which methods the effective settings (C28) ask for.  Readers and writers exist for
    sync and async fields only; a predicate of a plain field that is neither lazy nor
    optional is silently dropped. *)
Definition asked (c : sctx) (f : field) (k : hkind) : bool :=
  match k with
  | KAccessor => needs_accessor c f | KAccessorMut => needs_accessor_mut c f
  | KSetter => needs_setter c f
  | KReader => is_sync c f && needs_reader c f
  | KWriter => is_sync c f && needs_writer c f
  | KClearer => needs_clearer c f
  | KPredicate => needs_predicate c f && (is_sync c f || is_lazy c f || is_optional c f)
  | KBuilder | KLazy => false
  end.
(** Every value in build() was generated without a compile error. *)
Definition all_built (c : sctx) : Prop :=
  forall f, In f (builder_input c) -> exists e, field_build_value c f = GOk e.
