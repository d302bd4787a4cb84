(** The Copy check of fieldx_derive/src/codegen.rs and which implementations of Default
    the emitted code has and uses. *)
From Coq Require Import List Bool String.
From Verif Require Import ArgsModel CtxModel RustAst CommonGen StructGen.
Import ListNotations.
Open Scope string_scope.

(** codegen.rs:187-192 (prepare_field, called for all fields, 173-185) and
    ctx/codegen.rs:181-184: the types that __fieldx_copy_validation (codegen.rs:489-503)
    requires to be Copy. *)
Definition copy_checked (c : sctx) : list string :=
  map f_ty (filter (fun f => needs_accessor c f && is_copy c f) (all_fields c)).

(** codegen.rs:282-306 (default_impl): nothing when there are no fields. *)
Definition has_default_impl (c : sctx) : bool :=
  needs_default c && match all_fields c with [] => false | _ => true end.
(** codegen.rs:226-250 (struct_extras): new() or __fieldx_new() is emitted, and its
    literal ends with [..Self::default()]. *)
Definition new_emitted (c : sctx) : bool := needs_default c.
