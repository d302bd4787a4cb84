(** What is emitted for a whole struct: fieldx_derive/src/codegen.rs (prepare_field,
    builder_struct, builder_impl, default_impl) and codegen/serde.rs (shadow struct and
    its conversions).  A struct literal is the list of the fields it mentions, with the
    generated value, plus whether it ends with [..default()]. *)
From Coq Require Import List Bool String.
From Verif Require Import ArgsModel CtxModel RustAst CommonGen PlainGen SyncGen.
Import ListNotations.
Open Scope string_scope.

(** ** One field: codegen.rs:116-123 (field_codegen) picks the generator *)

(** codegen_trait.rs:287-301 (field_decl): plain.rs:40-61 or sync.rs:179-197. *)
Definition field_type (c : sctx) (f : field) : gres ty :=
  if is_sync c f then sync_type (cfg_of c f) else GOk (plain_type (cfg_of c f)).
(** codegen_trait.rs:303-315 (field_methods), the methods of the struct itself. *)
Definition field_methods (c : sctx) (f : field) : gres (list mdecl) :=
  if is_sync c f then sync_methods (cfg_of c f) else plain_methods (cfg_of c f).
(** codegen_trait.rs:324-329 (field_default). *)
Definition field_default (c : sctx) (f : field) : gres expr :=
  if is_sync c f then sync_default_wrap (cfg_of c f) else plain_default_wrap (cfg_of c f).
(** plain.rs:202-239, sync.rs:372-425 (field_builder_setter). *)
Definition field_build_value (c : sctx) (f : field) : gres expr :=
  if is_sync c f then sync_builder_value (cfg_of c f) else plain_builder_value (cfg_of c f).
(** plain.rs:444-460, sync.rs:438-442 (field_from_shadow). *)
Definition field_from_shadow (c : sctx) (f : field) : gres expr :=
  if is_sync c f then sync_from_shadow (cfg_of c f) else plain_from_shadow (cfg_of c f).
(** plain.rs:463-476, sync.rs:445-454 (field_from_struct). *)
Definition field_from_struct (c : sctx) (f : field) : expr :=
  if is_sync c f then sync_from_struct (cfg_of c f) else plain_from_struct (cfg_of c f).
(** plain.rs:67-79, sync.rs:427-435 (field_lazy_initializer) as called by serde.rs:408. *)
Definition field_lazy_init (c : sctx) (f : field) (x : string) : expr :=
  if is_sync c f then sync_lazy_init_of x else plain_lazy_init_of (cfg_of c f) x.

(** ** The struct *)
Record literal := mk_literal {
  lit_fields : list (string * gres expr);
  lit_base : bool                      (* ..Self::default() / ..Default::default() *)
}.
Definition lit_idents (l : literal) : list string := map fst (lit_fields l).

(** codegen.rs:467-520 (finalize): the fields of the struct, hidden one first. *)
Definition struct_fields (c : sctx) : list (string * gres ty) :=
  map (fun f => (f_ident f, field_type c f)) (all_fields c).
Definition struct_methods (c : sctx) : list (string * gres (list mdecl)) :=
  map (fun f => (f_ident f, field_methods c f)) (all_fields c).

(** codegen.rs:282-310 (default_impl) with codegen_trait.rs:324-329. *)
Definition default_literal (c : sctx) : literal :=
  mk_literal (map (fun f => (f_ident f, field_default c f)) (all_fields c)) false.

(** codegen_trait.rs:304-321: only fields that are not skipped reach the builder. *)
Definition builder_input (c : sctx) : list field :=
  filter (fun f => negb (f_is_skipped f)) (all_fields c).
(** codegen.rs:424-465 (builder_struct): hidden field and one Option per field. *)
Definition builder_fields (c : sctx) : list string :=
  (if s_is_ref_counted (c_args c)
   then match myself_field c with Some n => [n] | None => [] end else [])
  ++ map f_ident (builder_input c).
(** codegen.rs:345-352, 384-391: the fields initialised by new() of the builder. *)
Definition builder_new_fields (c : sctx) : list string :=
  match myself_field c with Some n => [n] | None => [] end ++ map f_ident (builder_input c).
(** codegen_trait.rs:317 with 357-378: the setters of the builder. *)
Definition builder_setters (c : sctx) : list (string * mdecl) :=
  flat_map (fun f => match field_builder (cfg_of c f) with
                     | Some m => [(f_ident f, m)]
                     | None => []
                     end) (builder_input c).
(** codegen.rs:361, 370-372: the checks made by build(), in order. *)
Definition builder_checked (c : sctx) : list string :=
  map f_ident (filter (fun f => value_required (cfg_of c f)) (builder_input c)).
(** codegen.rs:347-400 with codegen_trait.rs:232-276: the literal in build().  The
    [..default()] is added only when some setter expression is empty (363-365), which
    happens only after a generation error. *)
Definition me_clone : expr := EM0 (EVar "me") MClone.
Definition build_literal (c : sctx) : literal :=
  mk_literal
    ((if s_is_ref_counted (c_args c)
      then match myself_field c with Some n => [(n, GOk me_clone)] | None => [] end else [])
     ++ map (fun f => (f_ident f, field_build_value c f)) (builder_input c))
    (existsb (fun f => match field_build_value c f with GErr _ => true | _ => false end)
       (builder_input c) && needs_default c).

(** ** Serde *)
(** serde.rs:443-464 (prepare_struct), 140-157 (shadow_field), 117-126. *)
Definition shadow_type (g : fcfg) : ty := if serde_optional g then TOpt TT else TT.
Definition shadow_input (c : sctx) : list field := filter (is_serde c) (all_fields c).
Definition shadow_fields (c : sctx) : list (string * ty) :=
  map (fun f => (f_ident f, shadow_type (cfg_of c f))) (shadow_input c).
(** serde.rs:31-53 (skip_toks): skip in both directions, or one of them. *)
Definition shadow_skip (c : sctx) (f : field) : bool * bool :=   (* serializing, deserializing *)
  if s_is_serde (c_args c) then
    if negb (is_serde c f) then (true, true)
    else if negb (needs_serialize c f) then (true, false)
    else if negb (needs_deserialize c f) then (false, true)
    else (false, false)
  else (false, false).
(** serde.rs:159-189 (shadow_field_default), 128-138; always with fixup_self_type. *)
Definition shadow_default (g : fcfg) : expr :=
  match field_default_value g true with
  | RExact e | RVersatile e => if serde_optional g then EC1 PSome e else e
  | RNone => if serde_optional g then EC0 PNone else EC0 PDefault
  end.
(** serde.rs:339-389: impl From<Shadow> for Struct. *)
Definition from_shadow_emitted (c : sctx) : bool :=
  s_is_serde (c_args c) && s_needs_deserialize (c_args c).
Definition from_shadow_literal (c : sctx) : literal :=
  mk_literal (map (fun f => (f_ident f, field_from_shadow c f))
                (filter (fun f => is_serde c f && needs_deserialize c f) (all_fields c)))
    (needs_default c).
(** serde.rs:391-441: impl From<Struct> for Shadow. *)
Definition into_shadow_emitted (c : sctx) : bool :=
  s_is_serde (c_args c) && s_needs_serialize (c_args c).
Definition serialized (c : sctx) : list field :=
  filter (fun f => is_serde c f && needs_serialize c f) (all_fields c).
Definition into_shadow_inits (c : sctx) : list (string * expr) :=
  map (fun f => (f_ident f, field_lazy_init c f "__me"))
    (filter (is_lazy c) (serialized c)).
Definition into_shadow_literal (c : sctx) : literal :=
  mk_literal (map (fun f => (f_ident f, GOk (field_from_struct c f))) (serialized c)) false.
