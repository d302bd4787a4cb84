(** The generator for plain fields: fieldx_derive/src/codegen/plain.rs. *)
From Coq Require Import List Bool String.
From Verif Require Import ArgsModel RustAst CommonGen.
Import ListNotations.
Open Scope string_scope.

(** plain.rs:40-61 (type_tokens). *)
Definition plain_type (g : fcfg) : ty :=
  if g_lazy g then TOnce TT
  else
    let t := if g_optional g then TOpt TT else TT in
    if g_inner_mut g then TCell t else t.

(** plain.rs:20-27 (get_or_init_method). *)
Definition get_or_init (g : fcfg) : meth :=
  if g_fallible g then MGetOrTryInit else MGetOrInit.

(** plain.rs:67-79 (field_lazy_initializer) with self_ident = None. *)
Definition plain_lazy_init (g : fcfg) : expr :=
  EM1 (EFld "self") (get_or_init g) (EFn0 (EM0 (builder_self g) MBuild)).
(** The same with self_ident = Some x, used by serde.rs:399-412. *)
Definition plain_lazy_init_of (g : fcfg) (x : string) : expr :=
  EM1 (EFld x) (get_or_init g) (EFn0 (EM0 (EVar x) MBuild)).

(** plain.rs:81-146 (field_accessor).  [opt_ref], [ty_ref], [deref] and [meth] are the
    four token snippets chosen at 92-97. *)
Definition opt_ref_e (m : accmode) (e : expr) : expr :=
  match m with AMNone => ERef e | _ => e end.
Definition opt_ref_t (m : accmode) (t : ty) : ty :=
  match m with AMNone => TRef t | _ => t end.
Definition ty_ref_t (m : accmode) (t : ty) : ty :=
  match m with AMAsRef => TRef t | _ => t end.
Definition deref_e (m : accmode) (e : expr) : expr :=
  match m with AMCopy => EDeref e | _ => e end.
Definition meth_e (m : accmode) (e : expr) : expr :=
  match m with AMClone => EM0 e MClone | AMAsRef => EM0 e MAsRef | _ => e end.

(** Prefix operators bind weaker than [?] and method calls, so that
    [deref lazy_init shortcut meth] (line 103) is deref of the rest. *)
Definition plain_accessor (g : fcfg) : gres (list mdecl) :=
  if g_get g then
    let m := g_mode g in
    if g_lazy g then
      do t <- fallible_return_type g (opt_ref_t m TT);
      GOk [method g KAccessor false SRef None t
        (fallible_ok_return g (deref_e m (meth_e m (fallible_shortcut g (plain_lazy_init g)))))]
    else
      let t := maybe_optional g (ty_ref_t m TT) in
      if g_inner_mut g then
        let borrow := EM0 (EFld "self") MBorrow in
        if g_clone g || g_copy g
        then GOk [method g KAccessor false SRef None t (meth_e m (EDeref borrow))]
        else GOk [method g KAccessor false SRef None (TCellR t) (meth_e m borrow)]
      else GOk [method g KAccessor false SRef None (opt_ref_t m t)
                  (opt_ref_e m (meth_e m (EFld "self")))]
  else GOk [].

(** plain.rs:148-200 (field_accessor_mut). *)
Definition plain_accessor_mut (g : fcfg) : gres (list mdecl) :=
  if g_get_mut g then
    if g_lazy g then
      do t <- fallible_return_type g (TMut TT);
      GOk [method g KAccessorMut false SMut None t
        (ESeq (fallible_shortcut g (plain_lazy_init g))
              (fallible_ok_return g (EM0 (EM0 (EFld "self") MGetMut) MUnwrap)))]
    else
      let t := maybe_optional g TT in
      if g_inner_mut g
      then GOk [method g KAccessorMut false SRef None (TCellW t) (EM0 (EFld "self") MBorrowMut)]
      else GOk [method g KAccessorMut false SMut None (TMut t) (EMut (EFld "self"))]
  else GOk [].

(** plain.rs:241-300 (field_setter). *)
Definition plain_setter (g : fcfg) : gres (list mdecl) :=
  if g_set g then
    let arg := Some (arg_ty (g_set_into g)) in
    let v := arg_val (g_set_into g) in
    if g_lazy g then
      GOk [method g KSetter false SMut arg (TOpt TT)
        (ELet false "old" (EM0 (EFld "self") MTake)
          (ELet false "_" (EM1 (EFld "self") MSet v) (EVar "old")))]
    else
      let t := maybe_optional g TT in
      if g_inner_mut g then
        GOk [method g KSetter false SRef arg t
          (EM1 (EFld "self") MReplace (if g_optional g then EC1 PSome v else v))]
      else if g_optional g then
        GOk [method g KSetter false SMut arg t (EM1 (EFld "self") MReplace v)]
      else
        GOk [method g KSetter false SMut arg t (EC2 PMemReplace (EMut (EFld "self")) v)]
  else GOk [].

(** plain.rs:302-327 (field_clearer). *)
Definition plain_clearer (g : fcfg) : gres (list mdecl) :=
  if g_clearer g then
    if g_inner_mut g
    then GOk [method g KClearer false SRef None (maybe_optional g TT) (EM0 (EFld "self") MTake)]
    else GOk [method g KClearer false SMut None (TOpt TT) (EM0 (EFld "self") MTake)]
  else GOk [].

(** plain.rs:329-365 (field_predicate). *)
Definition plain_predicate (g : fcfg) : gres (list mdecl) :=
  if g_predicate g && (g_lazy g || g_optional g) then
    if g_lazy g
    then GOk [method g KPredicate false SRef None TBool (EM0 (EM0 (EFld "self") MGet) MIsSome)]
    else GOk [method g KPredicate false SRef None TBool
                (EM0 (if g_inner_mut g then EM0 (EFld "self") MBorrow else EFld "self") MIsSome)]
  else GOk [].

(** plain.rs:367-428 (field_value_wrap). *)
Definition plain_value_wrap (g : fcfg) (r : repr) : gres expr :=
  match r with
  | RExact v => GOk v
  | RVersatile v =>
      if g_lazy g then GOk (EC1 POnceFrom v)
      else
        let v := if g_optional g then EC1 PSome v else v in
        GOk (if g_inner_mut g then EC1 PCellFrom v else v)
  | RNone =>
      if g_lazy g then GOk (EC0 POnceNew)
      else if g_optional g
           then GOk (if g_inner_mut g then EC1 PCellNew (EC0 PNone) else EC0 PNone)
           else if g_inner_mut g
                then GErr "No value was supplied for internally mutable field"
                else GErr "No value was supplied for plain field"
  end.

(** plain.rs:430-432 (field_default_wrap). *)
Definition plain_default_wrap (g : fcfg) : gres expr :=
  plain_value_wrap g (field_default_value g true).

(** plain.rs:202-239 (field_builder_setter): the value given to the field by build(). *)
Definition plain_builder_value (g : fcfg) : gres expr :=
  do d <- plain_default_wrap g;
  if negb (g_forced g) && negb (g_builder g) then GOk d
  else if g_lazy g then
    GOk (EIf (EM0 (EFld "self") MIsSome)
             (EC1 POnceFrom (EM0 (EM0 (EFld "self") MTake) MUnwrap))
             d)
  else if g_optional g && negb (g_required g) then
    GOk (EIf (EM0 (EFld "self") MIsSome)
             (let v := EM0 (EFld "self") MTake in if g_inner_mut g then EC1 PCellFrom v else v)
             d)
  else value_for_set g (plain_value_wrap g) (plain_default_wrap g).

(** codegen_trait.rs:303-329 (field_methods) for this generator; readers and writers
    are not generated (plain.rs:435-441). *)
Definition plain_methods (g : fcfg) : gres (list mdecl) :=
  if g_skip g then GOk [] else
  do a <- plain_accessor g;
  do am <- plain_accessor_mut g;
  do s <- plain_setter g;
  do c <- plain_clearer g;
  do p <- plain_predicate g;
  GOk (a ++ am ++ s ++ c ++ p)%list.

(** plain.rs:444-460 (field_from_shadow); serde.rs:10-13 (is_serde_optional). *)
Definition serde_optional (g : fcfg) : bool := g_optional g || g_lazy g.
Definition plain_from_shadow (g : fcfg) : gres expr :=
  if serde_optional g then
    do d <- plain_default_wrap g;
    do v <- plain_value_wrap g (RVersatile (EVar "v"));
    GOk (EM2 (EFld "__shadow") MMapOrElse (EFn0 d) (EFn1 "v" v))
  else if g_inner_mut g then plain_value_wrap g (RVersatile (EFld "__shadow"))
  else GOk (EFld "__shadow").

(** plain.rs:463-476 (field_from_struct). *)
Definition plain_from_struct (g : fcfg) : expr :=
  if g_lazy g || g_inner_mut g then EM0 (EFld "__me") MTake else EFld "__me".
