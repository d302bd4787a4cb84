(** Effective settings of a field: FXFieldCtx (fieldx_derive/src/ctx/field.rs) and
    FXCodeGenCtx (fieldx_derive/src/ctx/codegen.rs) over the parsed arguments.
    Memoising cells (OnceCell) are replaced by the function they memoise: every one
    of them depends only on the immutable arguments.  [is_builder_opt_in] is also
    set by needs_builder_struct (ctx/codegen.rs:264-268), but only when the struct
    has no [builder] argument, in which case it is never consulted. *)
From Coq Require Import List Bool String Arith.
From Verif Require Import ArgsModel.
Import ListNotations.
Open Scope string_scope.

(** The parsed struct: fieldx_derive/src/input_receiver.rs (ident, vis, fields, attrs)
    with its arguments. *)
Record sctx := mk_sctx {
  c_ident : string;
  c_vis : string;
  c_args : sargs;
  c_input_fields : list field
}.

(** Option::unwrap_or, ctx/field.rs:19-32. *)
Definition obool_or (o : option bool) (d : bool) : bool := unwrap_or o d.

(** ctx/codegen.rs:425-433 (myself_names) and 420-423 (myself_field). *)
Definition myself_name (c : sctx) : option string :=
  match s_rc (c_args c) with
  | Some h => Some (unwrap_or (helper_name_of h) "myself")
  | None => None
  end.
Definition downgrade_name (c : sctx) : option string :=
  option_map (fun n => n ++ "_downgrade") (myself_name c).
Definition myself_field (c : sctx) : option string :=
  option_map (fun n => "__weak_" ++ n) (myself_name c).

(** ctx/codegen.rs:437-457 (is_rather_sync).  The extra field of an rc struct has no
    opinion on the mode (lemma [rc_field_no_mode] in ArgsProofs.v), so the list of
    input fields is used instead of all_fields. *)
Fixpoint first_some {A} (l : list (option A)) : option A :=
  match l with
  | [] => None
  | Some a :: _ => Some a
  | None :: t => first_some t
  end.
Definition is_rather_sync (c : sctx) : bool :=
  match s_is_sync (c_args c) with
  | Some b => b
  | None => obool_or (first_some (map f_is_sync (c_input_fields c))) false
  end.

(** codegen.rs:140-170 (prepare_ref_counted): the hidden weak self reference, a
    field with [skip, builder(off), serde(off)]. *)
Definition off_builder : builder :=
  mk_builder (mk_helper true None None None None) None None None None None None None.
Definition off_serde : serde :=
  mk_serde true None None None None None None None None.
Definition rc_field (name weak_ty : string) : field :=
  mk_field name "" (weak_ty ++ "<Self>") [] true None None None None None None None None
    None None None None None None None None None None (Some off_builder) None None None
    None None (Some off_serde).
(** plain.rs:31-33 and codegen/sync.rs:175-177 (ref_count_types). *)
Definition rc_type (c : sctx) : string :=
  if is_rather_sync c then "::std::sync::Arc" else "::std::rc::Rc".
Definition weak_type (c : sctx) : string :=
  if is_rather_sync c then "::std::sync::Weak" else "::std::rc::Weak".
Definition extra_fields (c : sctx) : list field :=
  if s_is_ref_counted (c_args c)
  then match myself_field c with Some n => [rc_field n (weak_type c)] | None => [] end
  else [].

(** ctx/codegen.rs:363-370 (all_fields). *)
Definition all_fields (c : sctx) : list field := extra_fields c ++ c_input_fields c.

(** ctx/codegen.rs:251-256 (is_builder_opt_in), builder_helper.rs:74-76. *)
Definition is_builder_opt_in (c : sctx) : bool :=
  match s_builder (c_args c) with Some b => on (b_opt_in b) | None => false end.

(** ctx/codegen.rs:259-275 (needs_builder_struct). *)
Definition needs_builder_struct (c : sctx) : bool :=
  match s_needs_builder (c_args c) with
  | Some b => b
  | None => existsb (fun f => on (f_needs_builder f)) (c_input_fields c)
  end.

(** ctx/codegen.rs:279-286 (shadow_ident). *)
Definition shadow_ident (c : sctx) : string :=
  match s_serde (c_args c) with
  | Some s => match se_shadow_name s with
              | Some n => unwrap_or (strarg_value n) ("__" ++ c_ident c ++ "Shadow")
              | None => "__" ++ c_ident c ++ "Shadow"
              end
  | None => "__" ++ c_ident c ++ "Shadow"
  end.

(** ctx/codegen.rs:393-418 (needs_default). *)
Definition needs_default (c : sctx) : bool :=
  match s_needs_default (c_args c) with
  | Some b => b
  | None =>
      s_needs_new (c_args c)
      || existsb (fun f => f_has_default_value f
                           || (is_rather_sync c && obool_or (f_is_lazy f) false))
           (c_input_fields c)
  end.

(** ** FXFieldCtx *)
Section FieldCtx.
Variable c : sctx.
Variable f : field.
Let a := c_args c.

(** ctx/field.rs:81 with helper_fn_ctx!, 19-32. *)
Definition is_lazy : bool := obool_or (or_else (f_is_lazy f) (s_is_lazy a)) false.
Definition is_inner_mut : bool := obool_or (or_else (f_is_inner_mut f) (s_is_inner_mut a)) false.

(** ctx/field.rs:83 with helper_fn_ctx!, 19-32. *)
Definition needs_accessor_mut : bool :=
  obool_or (or_else (f_needs_accessor_mut f) (s_needs_accessor_mut a)) false.
Definition needs_setter : bool :=
  obool_or (or_else (f_needs_setter f) (s_needs_setter a)) false.
Definition needs_writer : bool :=
  obool_or (or_else (f_needs_writer f) (s_needs_writer a)) false.

(** ctx/field.rs:126-147. *)
Definition needs_clearer : bool :=
  obool_or (or_else (f_needs_clearer f) (s_needs_clearer a)) false.
Definition needs_predicate : bool :=
  obool_or (or_else (f_needs_predicate f) (s_needs_predicate a)) false.
Definition needs_reader : bool :=
  obool_or (or_else (f_needs_reader f) (s_needs_reader a)) false.

(** ctx/field.rs:106-111 (needs_accessor). *)
Definition needs_accessor : bool :=
  obool_or (or_else (f_needs_accessor f) (s_needs_accessor a))
    (needs_clearer || needs_predicate || is_lazy || is_inner_mut).

(** ctx/field.rs:114-123 (needs_builder). *)
Definition needs_builder : bool :=
  obool_or (f_needs_builder f)
    (match s_needs_builder a with
     | Some needs => needs && negb (is_builder_opt_in c)
     | None => false
     end).

(** ctx/field.rs:242-249 (is_optional). *)
Definition is_optional : bool :=
  negb (f_is_skipped f)
  && obool_or (or_else (f_is_optional f) (s_is_optional a))
       (negb is_lazy && (needs_clearer || needs_predicate)).

(** ctx/field.rs:151-156 (needs_lock). *)
Definition needs_lock : bool :=
  obool_or (or_else (f_needs_lock f) (s_needs_lock a))
    (needs_reader || needs_writer || is_optional).

(** ctx/field.rs:160-172. *)
Definition needs_serialize : bool := obool_or (f_needs_serialize f) (s_is_serde a).
Definition needs_deserialize : bool := obool_or (f_needs_deserialize f) (s_is_serde a).

(** ctx/field.rs:175-177 (forced_builder). *)
Definition forced_builder : bool :=
  match f_builder f with
  | Some b => is_some (helper_name_of (b_base b))
  | None => false
  end.

(** ctx/field.rs:180-200. *)
Definition is_sync : bool := obool_or (f_is_sync f) (is_rather_sync c).
Definition is_async : bool := obool_or (or_else (f_is_async f) (s_is_async a)) false.
Definition is_fallible : bool := obool_or (or_else (f_is_fallible f) (s_is_fallible a)) false.

(** ctx/field.rs:203-220. *)
Definition is_copy : bool :=
  obool_or (or_else (f_is_accessor_copy f) (or_else (f_is_copy f)
           (or_else (s_is_accessor_copy a) (s_is_copy a)))) false.
Definition is_clone : bool :=
  obool_or (or_else (f_is_accessor_clone f) (or_else (f_is_clone f)
           (or_else (s_is_accessor_clone a) (s_is_clone a)))) false.

(** ctx/field.rs:223-240. *)
Definition is_builder_into : bool :=
  obool_or (or_else (f_is_builder_into f) (or_else (f_is_into f)
           (or_else (s_is_builder_into a) (s_is_into a)))) false.
Definition is_setter_into : bool :=
  obool_or (or_else (f_is_setter_into f) (or_else (f_is_into f)
           (or_else (s_is_setter_into a) (s_is_into a)))) false.

(** ctx/field.rs:251-257 (is_builder_required). *)
Definition is_builder_required : bool :=
  obool_or (or_else (match f_builder f with Some b => b_required b | None => None end)
                    (s_is_builder_required a)) false.

(** ctx/field.rs:260-262 (is_serde). *)
Definition is_serde : bool :=
  negb (f_is_skipped f) && (s_is_serde a && obool_or (f_is_serde f) true).

(** ctx/field.rs:264-289 (accessor_mode). *)
Definition copy_or_clone (is_copy : bool) : accmode := if is_copy then AMCopy else AMClone.
Definition accessor_mode : accmode :=
  unwrap_or (or_else (f_accessor_mode f)
            (or_else (option_map copy_or_clone (f_is_copy f))
            (or_else (s_accessor_mode a)
                     (option_map copy_or_clone (s_is_copy a))))) AMNone.

(** ctx/field.rs:291-298 (default_value): text and whether it is a string literal. *)
Definition default_value : option (string * bool) :=
  if f_has_default_value f then
    match f_default f with
    | Some d => option_map (fun v => (v, d_is_str d)) (d_value d)
    | None => None
    end
  else None.

(** ctx/field.rs:305-326 (vis_tok). *)
Definition pub_tok (p : pubmode) : string :=
  match p with
  | PMPrivate => ""
  | PMAll => "pub"
  | PMSuper => "pub(super)"
  | PMCrate => "pub(crate)"
  | PMInMod path => "pub(in " ++ path ++ ")"
  end.
(** Option::and_then, ctx/field.rs:305-312. *)
Definition obind {A B} (o : option A) (k : A -> option B) : option B :=
  match o with Some x => k x | None => None end.
Definition vis_tok (k : hkind) : string :=
  match or_else (obind (f_get_helper f k) helper_public_mode)
       (or_else (f_public_mode f)
       (or_else (obind (s_get_helper a k) helper_public_mode)
                (s_public_mode a))) with
  | None => c_vis c
  | Some p => pub_tok p
  end.

(** ctx/field.rs:381-388 (helper_base_name). *)
Definition helper_base_name : string := unwrap_or (f_base_name_of f) (f_ident f).

(** helper.rs:41-69. *)
Definition default_prefix (k : hkind) : option string :=
  match k with
  | KAccessorMut | KAccessor | KBuilder => None
  | KClearer => Some "clear_"
  | KLazy => Some "build_"
  | KPredicate => Some "has_"
  | KReader => Some "read_"
  | KSetter => Some "set_"
  | KWriter => Some "write_"
  end.
Definition default_suffix (k : hkind) : option string :=
  match k with KAccessorMut => Some "_mut" | _ => None end.

(** codegen/codegen_trait.rs:102-145 (helper_name). *)
Definition helper_name (k : hkind) : string :=
  let composed :=
    unwrap_or (or_else (obind (s_get_helper a k) helper_name_of) (default_prefix k)) ""
    ++ helper_base_name ++ unwrap_or (default_suffix k) "" in
  match obind (f_get_helper f k) helper_name_of with
  | Some n => if String.eqb n "" then composed else n
  | None => composed
  end.

(** codegen/codegen_trait.rs:186-209 (attributes_fn), the attribute list chosen. *)
Definition attributes_fn (k : hkind) : option (list string) :=
  or_else (obind (f_get_helper f k) h_attributes_fn)
  (or_else (f_attributes_fn f)
           (obind (s_get_helper a k) h_attributes_fn)).

End FieldCtx.

(** Which generator makes a field's code: codegen.rs:116-123 (field_codegen: sync or
    plain) and codegen/sync.rs:44-51 (implementor: async or sync). *)
Definition field_mode (c : sctx) (f : field) : syncmode :=
  if is_sync c f then (if is_async c f then MAsync else MSync) else MPlain.
