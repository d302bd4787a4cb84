(** The generic parameters in the items emitted by fieldx_derive/src/codegen.rs and
    codegen/serde.rs.  Only the places where the parameters appear are modelled; where
    clauses are copied unchanged everywhere and left out. *)
From Coq Require Import List Bool String.
From Verif Require Import ArgsModel CtxModel StructGen SerdeModel TokenSpec TokenModel GenericsSpec.
Import ListNotations.
Open Scope string_scope.
Open Scope list_scope.

(** The three ways to print parameters: [#generics] (ToTokens for syn::Generics), and the
    first two components of split_for_impl().  The method generic_params
    (codegen_trait.rs:210-219, input_receiver.rs:23-33) prints like the second of these. *)
Inductive printed := PGenerics | PImplGenerics | PTypeGenerics.
Definition gp_impl_toks (p : gparam) : list tok :=
  (match gp_kind p with GConst => [TIdent "const"] | _ => [] end)
  ++ gp_name_toks p
  ++ (match gp_bound p with [] => [] | b => TPunct ":" :: b end).
Definition print_generics (w : printed) (gs : list gparam) : list tok :=
  match gs with
  | [] => []
  | _ => TPunct "<" ::
         comma_join (map (match w with
                          | PGenerics => gp_decl_toks
                          | PImplGenerics => gp_impl_toks
                          | PTypeGenerics => gp_name_toks
                          end) gs) ++ [TPunct ">"]
  end.

(** An occurrence: the item, the place and what is printed there. *)
Record occ := mk_occ { o_item : string; o_place : place; o_printed : printed }.
(** An impl of a trait for a type, all printed with split_for_impl. *)
Definition split_impl (item : string) : list occ :=
  [mk_occ item AtImpl PImplGenerics; mk_occ item AtUse PTypeGenerics].

(** codegen.rs:504-521 (finalize). *)
Definition struct_occs : list occ :=
  mk_occ "struct" AtStruct PGenerics :: split_impl "impl FXStruct" ++ split_impl "impl struct".
(** codegen.rs:282-310 (default_impl). *)
Definition default_occs (c : sctx) : list occ :=
  if needs_default c then split_impl "impl Default" else [].
(** codegen.rs:210-219 (fn builder), 409-422 (builder_impl) with codegen_trait.rs:547-552
    (builder_return_type), 425-463 (builder_struct). *)
Definition builder_occs (c : sctx) : list occ :=
  if needs_builder_struct c then
    [mk_occ "fn builder" AtUse PTypeGenerics; mk_occ "struct builder" AtStruct PGenerics]
    ++ (if s_is_ref_counted (c_args c) then [mk_occ "struct builder" AtUse PGenerics] else [])
    ++ [mk_occ "impl builder" AtImpl PGenerics; mk_occ "impl builder" AtUse PTypeGenerics;
        mk_occ "fn build" AtUse PTypeGenerics]
  else [].
(** sync.rs:136-142 (struct type inside FXProxy...), for every sync lazy field. *)
Definition field_occs (c : sctx) : list occ :=
  if existsb (fun f => is_sync c f && is_lazy c f) (all_fields c)
  then [mk_occ "field types" AtUse PTypeGenerics] else [].
(** serde.rs:252-287 (serde_struct_attribute, the types in from = / into =), 289-337
    (serde_shadow_struct), 514-523 (serde_shadow_default_fn), 339-389, 391-441. *)
Definition conversion (item : string) : list occ :=
  [mk_occ item AtImpl PGenerics; mk_occ item AtUse PGenerics; mk_occ item AtUse PGenerics;
   mk_occ item AtUse PGenerics].
Definition serde_occs (c : sctx) : list occ :=
  if s_is_serde (c_args c) then
    (if s_needs_deserialize (c_args c) then [mk_occ "serde(from)" AtUse PGenerics] else [])
    ++ (if s_needs_serialize (c_args c) then [mk_occ "serde(into)" AtUse PGenerics] else [])
    ++ [mk_occ "struct shadow" AtStruct PGenerics]
    ++ (if needs_default c
        then [mk_occ "impl Default for shadow" AtImpl PGenerics; mk_occ "impl Default for shadow" AtUse PGenerics]
        else [])
    ++ (match serde_default_arg (s_serde (c_args c)) with
        | Some d => match d_value d with
                    | Some _ => [mk_occ "fn shadow default" AtUse PGenerics]
                    | None => []
                    end
        | None => []
        end)
    ++ (if from_shadow_emitted c then conversion "impl From<shadow>" else [])
    ++ (if into_shadow_emitted c then conversion "impl From<struct> for shadow" else [])
  else [].
Definition generic_occs (c : sctx) : list occ :=
  struct_occs ++ default_occs c ++ builder_occs c ++ field_occs c ++ serde_occs c.

(** The parameter as its author wrote it. *)
Definition param_of (p : gparam) : param :=
  mk_param (text (gp_name_toks p)) (match gp_kind p with GConst => true | _ => false end)
    (text (gp_bound p)) (text (gp_default p)).
Definition right (gs : list gparam) (o : occ) : Prop :=
  text (print_generics (o_printed o) gs) = params_text (o_place o) (map param_of gs).
