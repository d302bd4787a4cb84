(** C70: the Copy check; C71: the hidden field of a reference counted struct; C46: the
    implementation of Default that new() calls. *)
From Coq Require Import List Bool String.
From Verif Require Import ArgsModel CtxModel ArgsFixtures ArgsProps RustAst CommonGen RustTyping
  StructGen CodegenSpec CodegenValues CodegenProps CopyModel CopyProofs.
Import ListNotations.
Open Scope string_scope.

(** ** C70 *)
(** A method that type-checks only for a Copy type is a getter, and the type of its field
    is checked.  [cl]: the type is Clone, at least if clone is asked for. *)
Theorem C70_guarded : forall c f cl t l m, In f (all_fields c) ->
  (accessor_mode c f = AMClone -> cl = true) ->
  field_type c f = GOk t -> field_methods c f = GOk l -> In m l ->
  method_ok t (user_builder (is_fallible c f)) true cl m = true ->
  method_ok t (user_builder (is_fallible c f)) false cl m = false ->
  In (f_ty f) (copy_checked c) /\ m_kind m = KAccessor.
Proof. exact checked_guards. Qed.
Example C70_guarded_case :
  let f := put_f_lazy h_on (put_f_accessor get_copy fa) in
  let c := ctx_of sync_s [fb; f] in
  match field_type c f, field_methods c f with
  | GOk t, GOk [m] =>
      method_ok t (user_builder false) true false m = true /\
      method_ok t (user_builder false) false false m = false
  | _, _ => False
  end /\ copy_checked c = [f_ty f].
Proof. vm_compute. auto. Qed.

(** Full statement: a type is checked only if it is the type of a field with a getter
    that does not type-check otherwise.  Missing: skipped fields. *)
Theorem C70_needed_partial : forall c ty, In ty (copy_checked c) ->
  exists f, In f (all_fields c) /\ f_ty f = ty /\ is_copy c f = true /\
    (f_skip f = true \/
     forall t l, field_type c f = GOk t -> field_methods c f = GOk l ->
     exists m, In m l /\ m_kind m = KAccessor /\
       forall cl, method_ok t (user_builder (is_fallible c f)) false cl m = false).
Proof. exact checked_only. Qed.
Example C70_needed_case :
  copy_checked (ctx_of (put_s_accessor get_copy bare_sargs)
    [fa; put_f_accessor get_off fb; put_f_accessor get_clone (put_f_ty "C" fb)]) = ["A"].
Proof. vm_compute. reflexivity. Qed.
(** [#[fxstruct(get(copy))]] with a skipped String: no getter, but the String must be
    Copy. *)
Theorem C70_needed_refuted : exists c f, no_errors c f /\ f_skip f = true /\
  field_methods c f = GOk [] /\ copy_checked c = ["String"] /\ f_ty f = "String".
Proof.
  exists (ctx_of (put_s_accessor get_copy bare_sargs) [put_f_ty "String" (put_f_skip true fa)]),
    (put_f_ty "String" (put_f_skip true fa)).
  split; [split; reflexivity|]. vm_compute. auto.
Qed.

(** ** C71 *)
(** A reference counted struct has the hidden field, of type Weak<Self>, and the field
    is skipped. *)
Theorem C71_there : forall c, s_is_ref_counted (c_args c) = true ->
  exists f, hidden c f /\ In f (all_fields c) /\ f_ty f = weak_type c ++ "<Self>" /\ f_skip f = true.
Proof. exact hidden_there. Qed.
(** Full statement: whatever the arguments of the struct are, the hidden field is declared
    as Weak<Self>, so that myself(), myself_downgrade(), new() and build() type-check, its
    default type-checks, and it is not required to be Copy.  Exactly which arguments of
    the struct spoil this: *)
Theorem C71_hidden_iff_partial : forall c f, hidden c f ->
  (forall t, field_type c f = GOk t ->
     (t = TT <-> is_rather_sync c = true \/ struct_says (s_inner_mut (c_args c)) = false)) /\
  (forall us b t, field_type c f = GOk t -> exists e, field_default c f = GOk e /\
     has_type (in_default us b) e t = negb (is_rather_sync c && struct_locks (c_args c))) /\
  (needs_accessor c f && is_copy c f = struct_gets (c_args c) && struct_copies (c_args c)) /\
  ((exists t, field_type c f = GOk t) <->
   is_rather_sync c && is_fallible c f && negb (error_known c f) = false).
Proof. exact hidden_iff. Qed.
Definition hid (sync : bool) : field :=
  rc_field "__weak_myself" (if sync then "::std::sync::Weak" else "::std::rc::Weak").
Definition rc_s : sargs := put_s_rc h_on bare_sargs.
Example C71_case :
  let c := ctx_of (put_s_mode_sync (Some true) (put_s_lazy h_on (put_s_builder bld_on rc_s))) [fa] in
  struct_fields c = [("__weak_myself", GOk TT); ("a", GOk (TProxy false false))] /\
  field_default c (rc_field "__weak_myself" (weak_type c)) = GOk (EC0 PDefault)
  /\ copy_checked c = [].
Proof. vm_compute. auto. Qed.
(** [rc, inner_mut]: the hidden field is a RefCell.  [rc, sync, reader]: its default is a
    lock around the default.  [rc, get(copy)]: it must be Copy.  [rc, sync, fallible]
    with the error type given at every field: it has none. *)
Theorem C71_hidden_refuted :
  (exists c f, no_errors c f /\ hidden c f /\ field_type c f = GOk (TCell TT)) /\
  (exists c f e, no_errors c f /\ hidden c f /\ field_type c f = GOk TT /\
     field_default c f = GOk e /\ forall us b, has_type (in_default us b) e TT = false) /\
  (exists c f, no_errors c f /\ hidden c f /\ copy_checked c = [f_ty f] /\ c_input_fields c = []) /\
  (exists c f g msg, no_errors c f /\ no_errors c g /\ hidden c f /\ c_input_fields c = [g] /\
     error_known c g = true /\ field_type c f = GErr msg).
Proof.
  split; [|split; [|split]].
  - exists (ctx_of (put_s_inner_mut (Some true) rc_s) []), (hid false). split; [split; reflexivity|].
    split; [eexists; split; reflexivity|]. vm_compute. reflexivity.
  - exists (ctx_of (put_s_reader h_on (put_s_mode_sync (Some true) rc_s)) []), (hid true). eexists.
    split; [split; reflexivity|]. split; [eexists; split; reflexivity|].
    split; [vm_compute; reflexivity|]. split; [vm_compute; reflexivity|]. intros us b. vm_compute. reflexivity.
  - exists (ctx_of (put_s_accessor get_copy rc_s) []), (hid false). split; [split; reflexivity|].
    split; [eexists; split; reflexivity|]. vm_compute. auto.
  - pose (g := put_f_lazy h_on (put_f_fallible (fall_on "E") fa)).
    exists (ctx_of (put_s_mode_sync (Some true)
              (put_s_fallible (Some (mk_fallible false None)) rc_s)) [g]),
      (hid true), g. eexists. split; [split; reflexivity|]. split; [split; reflexivity|].
    split; [eexists; split; reflexivity|]. split; [reflexivity|]. split; [reflexivity|].
    vm_compute. reflexivity.
Qed.

(** ** C46: the implementation that new() needs *)
(** new() uses Self::default(); it exists exactly when there is a field, be it hidden. *)
Theorem C46_impl_exists_partial : forall c, new_emitted c = true ->
  (has_default_impl c = true <->
   c_input_fields c <> [] \/ s_is_ref_counted (c_args c) = true).
Proof. exact impl_exists. Qed.
Example C46_impl_case :
  new_emitted (ctx_of rc_s []) = true /\ has_default_impl (ctx_of rc_s []) = true /\
  new_emitted (ctx_of bare_sargs [fa]) = true /\ has_default_impl (ctx_of bare_sargs [fa]) = true.
Proof. vm_compute. auto. Qed.
(** [#[fxstruct] struct Foo {}]. *)
Theorem C46_no_fields_refuted : exists c, sargs_errors (c_args c) = [] /\
  needs_default c = true /\ new_emitted c = true /\ has_default_impl c = false.
Proof. exists (ctx_of bare_sargs []). vm_compute. auto. Qed.

Print Assumptions C70_guarded.
Print Assumptions C70_needed_partial.
Print Assumptions C70_needed_refuted.
Print Assumptions C71_there.
Print Assumptions C71_hidden_iff_partial.
Print Assumptions C71_hidden_refuted.
Print Assumptions C46_impl_exists_partial.
Print Assumptions C46_no_fields_refuted.
