(** The parts of fieldx_derive that decide what is derived for the struct and its shadow, and
    the name of the constructor. *)
From Coq Require Import List Bool String.
From Verif Require Import ArgsModel CtxModel RustAst CommonGen StructGen CopyModel.
Import ListNotations.
Open Scope string_scope.

(** codegen.rs:226-250 (struct_extras): the associated function made from the default, if any. *)
Definition new_fn (c : sctx) : option string :=
  if new_emitted c then Some (if s_needs_new (c_args c) then "new" else "__fieldx_new") else None.

(** codegen/serde.rs:235-251 (serde_derive_traits).  The list is used twice: for the struct
    (462) and for the shadow (297). *)
Definition serde_derives (c : sctx) : list string :=
  if s_is_serde (c_args c) then
    (if s_needs_serialize (c_args c) then ["Serialize"] else [])
    ++ (if s_needs_deserialize (c_args c) then ["Deserialize"] else [])
  else [].
(** codegen/serde.rs:253-286 (serde_struct_attribute): the arguments of [#[serde(...)]] on the
    struct; the value is always the shadow (generics: GenericsModel.v). *)
Definition serde_through (c : sctx) : list string :=
  if s_is_serde (c_args c) then
    (if s_needs_deserialize (c_args c) then ["from"] else [])
    ++ (if s_needs_serialize (c_args c) then ["into"] else [])
  else [].
(** codegen/serde.rs:288-336 (serde_shadow_struct): the shadow struct, its visibility (300). *)
Definition shadow_made (c : sctx) : option string :=
  if s_is_serde (c_args c) then
    Some match s_serde (c_args c) with
         | Some w => match public_mode (se_public w) (se_private w) with
                     | Some m => pub_tok m
                     | None => ""
                     end
         | None => ""
         end
  else None.
(** codegen/serde.rs:309-323: Default for the shadow. *)
Definition shadow_default_impl (c : sctx) : bool := s_is_serde (c_args c) && needs_default c.
