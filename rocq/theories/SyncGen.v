(** The generator for sync and async fields: fieldx_derive/src/codegen/sync.rs with
    sync/impl_sync.rs and sync/impl_async.rs ([g_async] selects the latter,
    sync.rs:44-51). *)
From Coq Require Import List Bool String.
From Verif Require Import ArgsModel RustAst CommonGen PlainGen.
Import ListNotations.
Open Scope string_scope.

(** async_decl / await_call: impl_async.rs:57-63, empty in impl_sync.rs. *)
Definition await (g : fcfg) (e : expr) : expr := if g_async g then EAwait e else e.

(** rwlock_mapped_read_guard: impl_sync.rs, impl_async.rs:77-79. *)
Definition mapped_read (g : fcfg) (t : ty) : ty := if g_async g then TLockR true t else TMapR t.

(** sync.rs:53-61 (read_method_name). *)
Definition read_name (g : fcfg) : meth := if g_fallible g then MTryRead else MRead.
Definition read_mut_name (g : fcfg) : meth := if g_fallible g then MTryReadMut else MReadMut.

(** sync.rs:144-162 (builder_wrapper_type): the error type must be known. *)
Definition wrapper_type_ok (g : fcfg) : gres unit :=
  if g_fallible g && negb (g_error_known g)
  then GErr "is marked as fallible but its error type is unknown"
  else GOk tt.

(** sync.rs:179-197 (type_tokens), 114-134 (maybe_optional_ty, maybe_locked_ty). *)
Definition maybe_locked (g : fcfg) (t : ty) : ty := if g_lock g then TLock (g_async g) t else t.
Definition sync_type (g : fcfg) : gres ty :=
  do _ok <- wrapper_type_ok g;
  GOk (if g_skip g then TT
       else if g_lazy g then TProxy (g_async g) (g_fallible g)
       else maybe_locked g (maybe_optional g TT)).

(** sync.rs:63-111 (field_reader_method). *)
Definition reader_method (g : fcfg) (k : hkind) : gres (list mdecl) :=
  if g_lazy g then
    do t <- fallible_return_type g (mapped_read g TT);
    GOk [method g k (g_async g) SRef None t
      (await g (EM1 (EFld "self") (read_name g) (ERef (builder_self g))))]
  else if g_optional g then
    GOk [method g k (g_async g) SRef None (TLockR (g_async g) (TOpt TT))
      (await g (EM0 (EFld "self") (read_name g)))]
  else
    GOk [method g k (g_async g) SRef None (TLockR (g_async g) TT)
      (await g (EM0 (EFld "self") MRead))].

(** sync.rs:212-309 (field_accessor). *)
Definition cmethod (g : fcfg) (e : expr) : expr :=
  if g_copy g then
    if g_optional g then EM0 (EM0 e MAsRef) MCopied else e
  else
    if g_optional g then EM0 (EM0 e MAsRef) MCloned else EM0 e MClone.
Definition sync_accessor (g : fcfg) : gres (list mdecl) :=
  if g_get g then
    if g_clone g || g_copy g then
      if g_lazy g then
        do t <- fallible_return_type g TT;
        GOk [method g KAccessor (g_async g) SRef None t
          (ELet false "rlock"
            (fallible_shortcut g
              (await g (EM1 (EFld "self") (read_name g) (ERef (builder_self g)))))
            (fallible_ok_return g (cmethod g (EDeref (EVar "rlock")))))]
      else if g_lock g then
        GOk [method g KAccessor false SRef None (maybe_optional g TT)
          (ELet false "rlock" (fallible_shortcut g (EM0 (EFld "self") MRead))
            (cmethod g (EDeref (EVar "rlock"))))]
      else if g_optional g then
        GOk [method g KAccessor false SRef None (maybe_optional g TT) (cmethod g (EFld "self"))]
      else
        GOk [method g KAccessor false SRef None TT
               (if g_copy g then EFld "self" else EM0 (EFld "self") MClone)]
    else if g_lazy g || g_lock g then reader_method g KAccessor
    else
      do t <- fallible_return_type g (maybe_optional g TT);
      GOk [method g KAccessor false SRef None (TRef t) (ERef (EFld "self"))]
  else GOk [].

(** sync.rs:311-370 (field_accessor_mut): the name is that of get_mut, visibility and
    attributes are those of get (314, 317). *)
Definition method_mut (g : fcfg) (asy : bool) (self : selfmode) (ret : ty) (body : expr) : mdecl :=
  mk_mdecl KAccessorMut (g_name g KAccessorMut) (g_vis g KAccessor) (g_attrs g KAccessor)
    asy self None ret body.
Definition sync_accessor_mut (g : fcfg) : gres (list mdecl) :=
  if g_get_mut g then
    if g_lazy g then
      do t <- fallible_return_type g (TMapW (g_async g) TT);
      GOk [method_mut g (g_async g) SRef t
        (await g (EM1 (EFld "self") (read_mut_name g) (ERef (builder_self g))))]
    else if g_lock g then
      GOk [method_mut g false SRef (TLockW (g_async g) (maybe_optional g TT))
        (EM0 (EFld "self") MWrite)]
    else
      GOk [method_mut g false SMut (TMut (maybe_optional g TT)) (EMut (EFld "self"))]
  else GOk [].

(** sync.rs:456-463 (field_reader). *)
Definition sync_reader (g : fcfg) : gres (list mdecl) :=
  if g_reader g then reader_method g KReader else GOk [].

(** sync.rs:465-507 (field_writer). *)
Definition sync_writer (g : fcfg) : gres (list mdecl) :=
  if g_writer g then
    let body := await g (EM0 (EFld "self") MWrite) in
    if g_lazy g then
      do _ok <- wrapper_type_ok g;
      GOk [method g KWriter (g_async g) SRef None (TGuard (g_async g) (g_fallible g)) body]
    else
      GOk [method g KWriter (g_async g) SRef None (TLockW (g_async g) (maybe_optional g TT)) body]
  else GOk [].

(** sync.rs:509-566 (field_setter). *)
Definition sync_setter (g : fcfg) : gres (list mdecl) :=
  if g_set g then
    let arg := Some (arg_ty (g_set_into g)) in
    let v := arg_val (g_set_into g) in
    if g_lazy g then
      GOk [method g KSetter (g_async g) SRef arg (TOpt TT)
        (EM1 (await g (EM0 (EFld "self") MWrite)) MStore v)]
    else if g_optional g then
      if g_lock g then
        GOk [method g KSetter (g_async g) SRef arg (TOpt TT)
          (EM1 (await g (EM0 (EFld "self") MWrite)) MReplace v)]
      else
        GOk [method g KSetter false SMut arg (TOpt TT) (EM1 (EFld "self") MReplace v)]
    else if g_lock g then
      GOk [method g KSetter (g_async g) SRef arg TT
        (ELet true "wlock" (await g (EM0 (EFld "self") MWrite))
          (EC2 PMemReplace (EMut (EDeref (EVar "wlock"))) v))]
    else
      GOk [method g KSetter false SMut arg TT (EC2 PMemReplace (EMut (EFld "self")) v)]
  else GOk [].

(** sync.rs:568-602 (field_clearer). *)
Definition sync_clearer (g : fcfg) : gres (list mdecl) :=
  if g_clearer g then
    GOk [method g KClearer (g_async g) SRef None (TOpt TT)
      (if g_lazy g then await g (EM0 (EFld "self") MClear)
       else EM0 (await g (EM0 (EFld "self") MWrite)) MTake)]
  else GOk [].

(** sync.rs:604-647 (field_predicate). *)
Definition sync_predicate (g : fcfg) : gres (list mdecl) :=
  if g_predicate g then
    if g_lazy g then
      GOk [method g KPredicate false SRef None TBool (EM0 (EFld "self") MIsSet)]
    else if g_lock g then
      GOk [method g KPredicate (g_async g) SRef None TBool
        (EM0 (await g (EM0 (EFld "self") (read_name g))) MIsSome)]
    else
      GOk [method g KPredicate false SRef None TBool (EM0 (EFld "self") MIsSome)]
  else GOk [].

(** sync.rs:164-170 (wrap_builder) around lazy_builder (impl_sync.rs; impl_async.rs:50-55). *)
Definition wrap_builder (g : fcfg) : gres expr :=
  do _ok <- wrapper_type_ok g;
  GOk (EC0 (PWrapBuilder (g_async g) (g_fallible g))).

(** sync.rs:649-690 (field_value_wrap). *)
Definition sync_value_wrap (g : fcfg) (r : repr) : gres expr :=
  let wrapper :=
    match r with
    | RNone => EC0 PNone
    | RExact v => v
    | RVersatile v => if g_optional g || g_lazy g then EC1 PSome v else v
    end in
  if g_lazy g then
    do _ty <- sync_type g;
    do b <- wrap_builder g;
    GOk (EC2 (PProxyNew (g_async g) (g_fallible g)) b wrapper)
  else if negb (g_optional g) && match r with RNone => true | _ => false end
  then GErr "No value was supplied for non-optional, non-lazy field"
  else GOk (if g_lock g then EC1 (PLockNew (g_async g)) wrapper else wrapper).

(** sync.rs:692-694 (field_default_wrap): no fixup_self_type here. *)
Definition sync_default_wrap (g : fcfg) : gres expr :=
  sync_value_wrap g (field_default_value g false).

(** sync.rs:372-425 (field_builder_setter).  [default.expect] (381) panics inside the
    macro when has_default_value is true but there is no value, which happens for a
    bare [default] on a lazy or optional field. *)
Definition repr_expect (r : repr) : gres expr :=
  match r with
  | RNone => GPanic "Internal problem: expected default value for field"
  | RExact e | RVersatile e => GOk e
  end.
Definition sync_builder_value (g : fcfg) : gres expr :=
  do _ty <- sync_type g;
  do or_default <-
    (if g_has_default g then
       do d <- repr_expect (field_default_value g true);
       GOk (fun e => if g_optional g || g_lazy g
                     then EM1 e MOrElse (EFn0 (EC1 PSome d))
                     else EM1 e MUnwrapOrElse (EFn0 d))
     else GOk (fun e => e));
  if negb (g_forced g) && negb (g_builder g) then sync_value_wrap g (field_default_value g false)
  else if g_lazy g then
    do b <- wrap_builder g;
    GOk (EC2 (PProxyNew (g_async g) (g_fallible g)) b (or_default (EM0 (EFld "self") MTake)))
  else if g_lock g then value_for_set g (sync_value_wrap g) (sync_default_wrap g)
  else if g_optional g then GOk (or_default (EM0 (EFld "self") MTake))
  else value_for_set g (sync_value_wrap g) (sync_default_wrap g).

(** codegen_trait.rs:303-329 (field_methods) for this generator.  The async wrapper of
    the user's builder (sync.rs:203-210, impl_async.rs:36-48) needs its error type; it
    is not listed as a method of its own. *)
Definition sync_methods (g : fcfg) : gres (list mdecl) :=
  if g_skip g then GOk [] else
  do a <- sync_accessor g;
  do am <- sync_accessor_mut g;
  do r <- sync_reader g;
  do w <- sync_writer g;
  do s <- sync_setter g;
  do c <- sync_clearer g;
  do p <- sync_predicate g;
  do _wr <- (if g_lazy g && g_async g then wrapper_type_ok g else GOk tt);
  GOk (a ++ am ++ r ++ w ++ s ++ c ++ p)%list.

(** sync.rs:427-435 (field_lazy_initializer) with self_ident = Some x. *)
Definition sync_lazy_init_of (x : string) : expr := EM1 (EFld x) MLazyInit (EVar x).

(** sync.rs:438-442 (field_from_shadow). *)
Definition sync_from_shadow (g : fcfg) : gres expr :=
  sync_value_wrap g (RExact (EFld "__shadow")).

(** sync.rs:445-454 (field_from_struct). *)
Definition sync_from_struct (g : fcfg) : expr :=
  if serde_optional g || g_lock g then EM0 (EFld "__me") MIntoInner else EFld "__me".
