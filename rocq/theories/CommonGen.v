(** What the generators know about one field, and the parts of
    fieldx_derive/src/codegen/codegen_trait.rs shared by both generators. *)
From Coq Require Import List Bool String.
From Verif Require Import ArgsModel CtxModel RustAst.
Import ListNotations.
Open Scope string_scope.

(** Everything plain.rs and sync.rs ask of FXFieldCtx. *)
Record fcfg := mk_fcfg {
  g_ident : string;
  g_skip : bool;
  g_lazy : bool;
  g_optional : bool;
  g_inner_mut : bool;
  g_lock : bool;
  g_clone : bool;
  g_copy : bool;
  g_mode : accmode;
  g_fallible : bool;
  g_error_known : bool;             (* a fallible error type is given somewhere *)
  g_async : bool;
  g_rc : bool;
  g_get : bool; g_get_mut : bool; g_set : bool; g_reader : bool; g_writer : bool;
  g_clearer : bool; g_predicate : bool;
  g_builder : bool; g_forced : bool; g_required : bool;
  g_set_into : bool; g_build_into : bool;
  g_has_default : bool;
  g_default : option (string * bool);
  g_serde : bool; g_ser : bool; g_deser : bool;
  g_name : hkind -> string;
  g_vis : hkind -> string;
  g_attrs : hkind -> option (list string)
}.

(** FXFieldCtx, ctx/field.rs, gathered. *)
Definition cfg_of (c : sctx) (f : field) : fcfg :=
  mk_fcfg (f_ident f) (f_is_skipped f) (is_lazy c f) (is_optional c f) (is_inner_mut c f)
    (needs_lock c f) (is_clone c f) (is_copy c f) (accessor_mode c f) (is_fallible c f)
    (is_some (or_else (f_fallible_error f) (s_fallible_error (c_args c))))
    (is_async c f) (s_is_ref_counted (c_args c))
    (needs_accessor c f) (needs_accessor_mut c f) (needs_setter c f) (needs_reader c f)
    (needs_writer c f) (needs_clearer c f) (needs_predicate c f)
    (needs_builder c f) (forced_builder f) (is_builder_required c f)
    (is_setter_into c f) (is_builder_into c f)
    (f_has_default_value f) (default_value f)
    (is_serde c f) (needs_serialize c f) (needs_deserialize c f)
    (helper_name c f) (vis_tok c f) (attributes_fn c f).

(** codegen.rs:36-81 (FXValueRepr). *)
Inductive repr := RNone | RExact (e : expr) | RVersatile (e : expr).

(** codegen_trait.rs:331-355 (field_default_value).  In the model the expression records
    whether Self has been replaced by the struct (fixup_self_type, 480-507). *)
Definition default_expr (fixed : bool) (d : string * bool) : expr :=
  if snd d then EC1 PStringFrom (EUser (fst d) fixed) else EUser (fst d) fixed.
Definition field_default_value (g : fcfg) (fixed : bool) : repr :=
  match g_default g with
  | Some d => RVersatile (default_expr fixed d)
  | None => if g_lazy g || g_optional g then RNone else RExact (EC0 PDefault)
  end.

(** codegen_trait.rs:278-285 (maybe_optional). *)
Definition maybe_optional (g : fcfg) (t : ty) : ty := if g_optional g then TOpt t else t.

(** codegen_trait.rs:512-524 (into_toks): argument type and conversion. *)
Definition arg_ty (into : bool) : ty := if into then TIntoT else TT.
Definition arg_val (into : bool) : expr :=
  if into then EM0 (EVar "value") MInto else EVar "value".

(** codegen_trait.rs:530-545 (maybe_ref_counted_self). *)
Definition builder_self (g : fcfg) : expr :=
  if g_rc g then EM0 (EM0 (EVar "self") MMyself) MExpect else EVar "self".

(** codegen_trait.rs:554-568 (fallible_return_type); ctx/field.rs:458-470
    (fallible_error). *)
Definition fallible_return_type (g : fcfg) (t : ty) : gres ty :=
  if g_fallible g
  then if g_error_known g then GOk (TRes t)
       else GErr "is marked as fallible but its error type is unknown"
  else GOk t.
(** ctx/field.rs:472-488 (fallible_shortcut, fallible_ok_return). *)
Definition fallible_shortcut (g : fcfg) (e : expr) : expr := if g_fallible g then ETry e else e.
Definition fallible_ok_return (g : fcfg) (e : expr) : expr :=
  if g_fallible g then EC1 POk e else e.

(** A method with the name, visibility and attributes of its own kind. *)
Definition method (g : fcfg) (k : hkind) (asy : bool) (self : selfmode) (arg : option ty)
    (ret : ty) (body : expr) : mdecl :=
  mk_mdecl k (g_name g k) (g_vis g k) (g_attrs g k) asy self arg ret body.

(** codegen_trait.rs:357-378 (field_builder): the setter in the builder type; always
    [pub]. *)
Definition field_builder (g : fcfg) : option mdecl :=
  if g_forced g || g_builder g
  then Some (mk_mdecl KBuilder (g_name g KBuilder) "pub" (g_attrs g KBuilder) false SOwn
               (Some (arg_ty (g_build_into g))) TSelf
               (EAssign "self" (EC1 PSome (arg_val (g_build_into g))) (EVar "self")))
  else None.

(** codegen_trait.rs:396-428 (field_builder_value_required): is the field checked by
    build()? *)
Definition value_required (g : fcfg) : bool :=
  g_required g
  || (g_builder g && negb (g_lazy g || g_optional g || g_has_default g)).

(** codegen_trait.rs:430-478 (field_builder_value_for_set), given the generator's
    value_wrap and default_wrap.  Errors of the wraps are recorded as compile errors
    (push_error, ok_or_empty). *)
Definition value_for_set (g : fcfg) (value_wrap : repr -> gres expr) (default_wrap : gres expr)
  : gres expr :=
  do alternative <-
    (if g_has_default g then (do e <- default_wrap; GOk (Some e))
     else if g_optional g && negb (g_required g)
          then (do e <- value_wrap (RExact (EC0 PNone)); GOk (Some e))
          else GOk None);
  match alternative with
  | Some alt =>
      do manual <- value_wrap (RVersatile (EVar "field_manual_value"));
      GOk (EIfSome "field_manual_value" (EM0 (EFld "self") MTake) manual alt)
  | None =>
      value_wrap (RVersatile (EM0 (EM0 (EFld "self") MTake) MUnwrap))
  end.
