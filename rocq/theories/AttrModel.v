(** Where the attributes written by the user end up: fieldx_derive/src/util/args.rs,
    codegen.rs, codegen/codegen_trait.rs and codegen/serde.rs.  An attribute is its text
    without [#[ ]].  Left out: what the macro adds by itself (inline(always),
    allow(dead_code), derive and serde(..)), and the attributes of the struct itself,
    which are in TokenModel.v (all_attrs). *)
From Coq Require Import List Bool String Ascii.
From Verif Require Import ArgsModel CtxModel RustAst CommonGen StructGen.
Import ListNotations.
Open Scope string_scope.

(** An item of the expansion that can carry attributes. *)
Inductive place :=
| AtStructImpl
| AtField (f : field)
| AtMethod (f : field) (k : hkind)
| AtBuilderStruct
| AtBuilderImpl
| AtBuilderField (f : field)
| AtBuilderSetter (f : field)
| AtShadowStruct
| AtShadowField (f : field).

(** fieldx_aux/src/attributes.rs:62-66 (to_tokens): one attribute after the other, none
    when the argument is missing. *)
Definition toks (o : option (list string)) : list string := unwrap_or o [].

(** syn's Attribute::path: the text up to the arguments or the value; called at
    serde.rs:28 and fieldx_aux/src/serde_helper.rs:96. *)
Definition ends_path (a : ascii) : bool :=
  existsb (Ascii.eqb a) ["("; "["; "{"; "="; " "]%char.
Fixpoint path_of (s : string) : string :=
  match s with
  | EmptyString => EmptyString
  | String a t => if ends_path a then EmptyString else String a (path_of t)
  end.

(** fieldx_aux/src/serde_helper.rs:95-97 (accepts_attr). *)
Definition accepts_attr (h : serde) (a : string) : bool :=
  match se_forward_attrs h with
  | Some l => existsb (String.eqb (path_of a)) l
  | None => true
  end.

Section Attrs.
Context (c : sctx).
Let a := c_args c.

(** util/args.rs:254-268 (builder_attributes, builder_impl_attributes). *)
Definition builder_attributes : option (list string) :=
  or_else (obind (s_builder a) b_attributes) (s_attributes a).
Definition builder_impl_attributes : option (list string) :=
  or_else (obind (s_builder a) b_attributes_impl) (s_attributes_impl a).

(** codegen/codegen_trait.rs:384 (field_builder_field). *)
Definition builder_field_attributes (f : field) : option (list string) :=
  obind (f_builder f) b_attributes.

(** codegen/serde.rs:23-29 (filter_shadow_attributes). *)
Definition shadow_keeps (f : field) (x : string) : bool :=
  String.eqb (path_of x) "serde"
  || match or_else (f_serde f) (s_serde a) with
     | Some h => accepts_attr h x
     | None => false
     end.
(** codegen/serde.rs:140-157 (serde_shadow_field). *)
Definition shadow_field_attributes (f : field) : list string :=
  toks (or_else (obind (f_serde f) se_attributes) (s_attributes a))
  ++ filter (shadow_keeps f) (f_attrs f).
(** codegen/serde.rs:301, 327 (serde_shadow_struct). *)
Definition shadow_struct_attributes : option (list string) := obind (s_serde a) se_attributes.

(** codegen/codegen_trait.rs:287-321 (field_decl, field_methods): the items made for one
    field; nothing but the declaration for a skipped one, and no methods when the macro
    reports an error. *)
Definition field_items (f : field) : list (place * list string) :=
  (AtField f, f_attrs f)
  :: match field_methods c f with
     | GOk l => map (fun m => (AtMethod f (m_kind m), toks (m_attrs m))) l
     | _ => []
     end
  ++ (if negb (f_is_skipped f) && needs_builder_struct c then
        (AtBuilderField f, toks (builder_field_attributes f))
        :: match field_builder (cfg_of c f) with
           | Some m => [(AtBuilderSetter f, toks (m_attrs m))]
           | None => []
           end
      else [])
  ++ (if s_is_serde a && is_serde c f
      then [(AtShadowField f, shadow_field_attributes f)] else []).

(** codegen.rs:336, 410, 436, 451, 482, 517 (builder_impl, builder_struct, finalize) and
    codegen/serde.rs:289-337, with the items of all fields. *)
Definition placed : list (place * list string) :=
  (AtStructImpl, toks (s_attributes_impl a))
  :: (if needs_builder_struct c
      then [(AtBuilderStruct, toks builder_attributes);
            (AtBuilderImpl, toks builder_impl_attributes)] else [])
  ++ (if s_is_serde a then [(AtShadowStruct, toks shadow_struct_attributes)] else [])
  ++ flat_map field_items (all_fields c).

End Attrs.
