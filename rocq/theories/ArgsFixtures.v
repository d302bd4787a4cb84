(** Record updates used to write concrete arguments in examples and witnesses.
    [put_f_lazy v f] is the field [f] with its argument [lazy] replaced by [v]; these
    are test fixtures, not part of the model of the code. *)
From Coq Require Import List Bool String.
From Verif Require Import ArgsModel.
Import ListNotations.

Definition put_f_ident (v : string) (f : field) : field :=
  mk_field v (f_vis f) (f_ty f) (f_attrs f) (f_skip f) (f_mode f) (f_mode_sync f) (f_mode_async f) (f_attributes_fn f) (f_fallible f) (f_lazy f) (f_base_name f) (f_accessor f) (f_accessor_mut f) (f_setter f) (f_reader f) (f_writer f) (f_clearer f) (f_predicate f) (f_optional f) (f_public f) (f_private f) (f_default f) (f_builder f) (f_into f) (f_clone f) (f_copy f) (f_lock f) (f_inner_mut f) (f_serde f).
Definition put_f_vis (v : string) (f : field) : field :=
  mk_field (f_ident f) v (f_ty f) (f_attrs f) (f_skip f) (f_mode f) (f_mode_sync f) (f_mode_async f) (f_attributes_fn f) (f_fallible f) (f_lazy f) (f_base_name f) (f_accessor f) (f_accessor_mut f) (f_setter f) (f_reader f) (f_writer f) (f_clearer f) (f_predicate f) (f_optional f) (f_public f) (f_private f) (f_default f) (f_builder f) (f_into f) (f_clone f) (f_copy f) (f_lock f) (f_inner_mut f) (f_serde f).
Definition put_f_ty (v : string) (f : field) : field :=
  mk_field (f_ident f) (f_vis f) v (f_attrs f) (f_skip f) (f_mode f) (f_mode_sync f) (f_mode_async f) (f_attributes_fn f) (f_fallible f) (f_lazy f) (f_base_name f) (f_accessor f) (f_accessor_mut f) (f_setter f) (f_reader f) (f_writer f) (f_clearer f) (f_predicate f) (f_optional f) (f_public f) (f_private f) (f_default f) (f_builder f) (f_into f) (f_clone f) (f_copy f) (f_lock f) (f_inner_mut f) (f_serde f).
Definition put_f_attrs (v : list string) (f : field) : field :=
  mk_field (f_ident f) (f_vis f) (f_ty f) v (f_skip f) (f_mode f) (f_mode_sync f) (f_mode_async f) (f_attributes_fn f) (f_fallible f) (f_lazy f) (f_base_name f) (f_accessor f) (f_accessor_mut f) (f_setter f) (f_reader f) (f_writer f) (f_clearer f) (f_predicate f) (f_optional f) (f_public f) (f_private f) (f_default f) (f_builder f) (f_into f) (f_clone f) (f_copy f) (f_lock f) (f_inner_mut f) (f_serde f).
Definition put_f_skip (v : bool) (f : field) : field :=
  mk_field (f_ident f) (f_vis f) (f_ty f) (f_attrs f) v (f_mode f) (f_mode_sync f) (f_mode_async f) (f_attributes_fn f) (f_fallible f) (f_lazy f) (f_base_name f) (f_accessor f) (f_accessor_mut f) (f_setter f) (f_reader f) (f_writer f) (f_clearer f) (f_predicate f) (f_optional f) (f_public f) (f_private f) (f_default f) (f_builder f) (f_into f) (f_clone f) (f_copy f) (f_lock f) (f_inner_mut f) (f_serde f).
Definition put_f_mode (v : option syncmode) (f : field) : field :=
  mk_field (f_ident f) (f_vis f) (f_ty f) (f_attrs f) (f_skip f) v (f_mode_sync f) (f_mode_async f) (f_attributes_fn f) (f_fallible f) (f_lazy f) (f_base_name f) (f_accessor f) (f_accessor_mut f) (f_setter f) (f_reader f) (f_writer f) (f_clearer f) (f_predicate f) (f_optional f) (f_public f) (f_private f) (f_default f) (f_builder f) (f_into f) (f_clone f) (f_copy f) (f_lock f) (f_inner_mut f) (f_serde f).
Definition put_f_mode_sync (v : option bool) (f : field) : field :=
  mk_field (f_ident f) (f_vis f) (f_ty f) (f_attrs f) (f_skip f) (f_mode f) v (f_mode_async f) (f_attributes_fn f) (f_fallible f) (f_lazy f) (f_base_name f) (f_accessor f) (f_accessor_mut f) (f_setter f) (f_reader f) (f_writer f) (f_clearer f) (f_predicate f) (f_optional f) (f_public f) (f_private f) (f_default f) (f_builder f) (f_into f) (f_clone f) (f_copy f) (f_lock f) (f_inner_mut f) (f_serde f).
Definition put_f_mode_async (v : option bool) (f : field) : field :=
  mk_field (f_ident f) (f_vis f) (f_ty f) (f_attrs f) (f_skip f) (f_mode f) (f_mode_sync f) v (f_attributes_fn f) (f_fallible f) (f_lazy f) (f_base_name f) (f_accessor f) (f_accessor_mut f) (f_setter f) (f_reader f) (f_writer f) (f_clearer f) (f_predicate f) (f_optional f) (f_public f) (f_private f) (f_default f) (f_builder f) (f_into f) (f_clone f) (f_copy f) (f_lock f) (f_inner_mut f) (f_serde f).
Definition put_f_attributes_fn (v : option (list string)) (f : field) : field :=
  mk_field (f_ident f) (f_vis f) (f_ty f) (f_attrs f) (f_skip f) (f_mode f) (f_mode_sync f) (f_mode_async f) v (f_fallible f) (f_lazy f) (f_base_name f) (f_accessor f) (f_accessor_mut f) (f_setter f) (f_reader f) (f_writer f) (f_clearer f) (f_predicate f) (f_optional f) (f_public f) (f_private f) (f_default f) (f_builder f) (f_into f) (f_clone f) (f_copy f) (f_lock f) (f_inner_mut f) (f_serde f).
Definition put_f_fallible (v : option fallible) (f : field) : field :=
  mk_field (f_ident f) (f_vis f) (f_ty f) (f_attrs f) (f_skip f) (f_mode f) (f_mode_sync f) (f_mode_async f) (f_attributes_fn f) v (f_lazy f) (f_base_name f) (f_accessor f) (f_accessor_mut f) (f_setter f) (f_reader f) (f_writer f) (f_clearer f) (f_predicate f) (f_optional f) (f_public f) (f_private f) (f_default f) (f_builder f) (f_into f) (f_clone f) (f_copy f) (f_lock f) (f_inner_mut f) (f_serde f).
Definition put_f_lazy (v : option helper) (f : field) : field :=
  mk_field (f_ident f) (f_vis f) (f_ty f) (f_attrs f) (f_skip f) (f_mode f) (f_mode_sync f) (f_mode_async f) (f_attributes_fn f) (f_fallible f) v (f_base_name f) (f_accessor f) (f_accessor_mut f) (f_setter f) (f_reader f) (f_writer f) (f_clearer f) (f_predicate f) (f_optional f) (f_public f) (f_private f) (f_default f) (f_builder f) (f_into f) (f_clone f) (f_copy f) (f_lock f) (f_inner_mut f) (f_serde f).
Definition put_f_base_name (v : option strarg) (f : field) : field :=
  mk_field (f_ident f) (f_vis f) (f_ty f) (f_attrs f) (f_skip f) (f_mode f) (f_mode_sync f) (f_mode_async f) (f_attributes_fn f) (f_fallible f) (f_lazy f) v (f_accessor f) (f_accessor_mut f) (f_setter f) (f_reader f) (f_writer f) (f_clearer f) (f_predicate f) (f_optional f) (f_public f) (f_private f) (f_default f) (f_builder f) (f_into f) (f_clone f) (f_copy f) (f_lock f) (f_inner_mut f) (f_serde f).
Definition put_f_accessor (v : option accessor) (f : field) : field :=
  mk_field (f_ident f) (f_vis f) (f_ty f) (f_attrs f) (f_skip f) (f_mode f) (f_mode_sync f) (f_mode_async f) (f_attributes_fn f) (f_fallible f) (f_lazy f) (f_base_name f) v (f_accessor_mut f) (f_setter f) (f_reader f) (f_writer f) (f_clearer f) (f_predicate f) (f_optional f) (f_public f) (f_private f) (f_default f) (f_builder f) (f_into f) (f_clone f) (f_copy f) (f_lock f) (f_inner_mut f) (f_serde f).
Definition put_f_accessor_mut (v : option helper) (f : field) : field :=
  mk_field (f_ident f) (f_vis f) (f_ty f) (f_attrs f) (f_skip f) (f_mode f) (f_mode_sync f) (f_mode_async f) (f_attributes_fn f) (f_fallible f) (f_lazy f) (f_base_name f) (f_accessor f) v (f_setter f) (f_reader f) (f_writer f) (f_clearer f) (f_predicate f) (f_optional f) (f_public f) (f_private f) (f_default f) (f_builder f) (f_into f) (f_clone f) (f_copy f) (f_lock f) (f_inner_mut f) (f_serde f).
Definition put_f_setter (v : option setter) (f : field) : field :=
  mk_field (f_ident f) (f_vis f) (f_ty f) (f_attrs f) (f_skip f) (f_mode f) (f_mode_sync f) (f_mode_async f) (f_attributes_fn f) (f_fallible f) (f_lazy f) (f_base_name f) (f_accessor f) (f_accessor_mut f) v (f_reader f) (f_writer f) (f_clearer f) (f_predicate f) (f_optional f) (f_public f) (f_private f) (f_default f) (f_builder f) (f_into f) (f_clone f) (f_copy f) (f_lock f) (f_inner_mut f) (f_serde f).
Definition put_f_reader (v : option helper) (f : field) : field :=
  mk_field (f_ident f) (f_vis f) (f_ty f) (f_attrs f) (f_skip f) (f_mode f) (f_mode_sync f) (f_mode_async f) (f_attributes_fn f) (f_fallible f) (f_lazy f) (f_base_name f) (f_accessor f) (f_accessor_mut f) (f_setter f) v (f_writer f) (f_clearer f) (f_predicate f) (f_optional f) (f_public f) (f_private f) (f_default f) (f_builder f) (f_into f) (f_clone f) (f_copy f) (f_lock f) (f_inner_mut f) (f_serde f).
Definition put_f_writer (v : option helper) (f : field) : field :=
  mk_field (f_ident f) (f_vis f) (f_ty f) (f_attrs f) (f_skip f) (f_mode f) (f_mode_sync f) (f_mode_async f) (f_attributes_fn f) (f_fallible f) (f_lazy f) (f_base_name f) (f_accessor f) (f_accessor_mut f) (f_setter f) (f_reader f) v (f_clearer f) (f_predicate f) (f_optional f) (f_public f) (f_private f) (f_default f) (f_builder f) (f_into f) (f_clone f) (f_copy f) (f_lock f) (f_inner_mut f) (f_serde f).
Definition put_f_clearer (v : option helper) (f : field) : field :=
  mk_field (f_ident f) (f_vis f) (f_ty f) (f_attrs f) (f_skip f) (f_mode f) (f_mode_sync f) (f_mode_async f) (f_attributes_fn f) (f_fallible f) (f_lazy f) (f_base_name f) (f_accessor f) (f_accessor_mut f) (f_setter f) (f_reader f) (f_writer f) v (f_predicate f) (f_optional f) (f_public f) (f_private f) (f_default f) (f_builder f) (f_into f) (f_clone f) (f_copy f) (f_lock f) (f_inner_mut f) (f_serde f).
Definition put_f_predicate (v : option helper) (f : field) : field :=
  mk_field (f_ident f) (f_vis f) (f_ty f) (f_attrs f) (f_skip f) (f_mode f) (f_mode_sync f) (f_mode_async f) (f_attributes_fn f) (f_fallible f) (f_lazy f) (f_base_name f) (f_accessor f) (f_accessor_mut f) (f_setter f) (f_reader f) (f_writer f) (f_clearer f) v (f_optional f) (f_public f) (f_private f) (f_default f) (f_builder f) (f_into f) (f_clone f) (f_copy f) (f_lock f) (f_inner_mut f) (f_serde f).
Definition put_f_optional (v : option bool) (f : field) : field :=
  mk_field (f_ident f) (f_vis f) (f_ty f) (f_attrs f) (f_skip f) (f_mode f) (f_mode_sync f) (f_mode_async f) (f_attributes_fn f) (f_fallible f) (f_lazy f) (f_base_name f) (f_accessor f) (f_accessor_mut f) (f_setter f) (f_reader f) (f_writer f) (f_clearer f) (f_predicate f) v (f_public f) (f_private f) (f_default f) (f_builder f) (f_into f) (f_clone f) (f_copy f) (f_lock f) (f_inner_mut f) (f_serde f).
Definition put_f_public (v : option pubmode) (f : field) : field :=
  mk_field (f_ident f) (f_vis f) (f_ty f) (f_attrs f) (f_skip f) (f_mode f) (f_mode_sync f) (f_mode_async f) (f_attributes_fn f) (f_fallible f) (f_lazy f) (f_base_name f) (f_accessor f) (f_accessor_mut f) (f_setter f) (f_reader f) (f_writer f) (f_clearer f) (f_predicate f) (f_optional f) v (f_private f) (f_default f) (f_builder f) (f_into f) (f_clone f) (f_copy f) (f_lock f) (f_inner_mut f) (f_serde f).
Definition put_f_private (v : option bool) (f : field) : field :=
  mk_field (f_ident f) (f_vis f) (f_ty f) (f_attrs f) (f_skip f) (f_mode f) (f_mode_sync f) (f_mode_async f) (f_attributes_fn f) (f_fallible f) (f_lazy f) (f_base_name f) (f_accessor f) (f_accessor_mut f) (f_setter f) (f_reader f) (f_writer f) (f_clearer f) (f_predicate f) (f_optional f) (f_public f) v (f_default f) (f_builder f) (f_into f) (f_clone f) (f_copy f) (f_lock f) (f_inner_mut f) (f_serde f).
Definition put_f_default (v : option defarg) (f : field) : field :=
  mk_field (f_ident f) (f_vis f) (f_ty f) (f_attrs f) (f_skip f) (f_mode f) (f_mode_sync f) (f_mode_async f) (f_attributes_fn f) (f_fallible f) (f_lazy f) (f_base_name f) (f_accessor f) (f_accessor_mut f) (f_setter f) (f_reader f) (f_writer f) (f_clearer f) (f_predicate f) (f_optional f) (f_public f) (f_private f) v (f_builder f) (f_into f) (f_clone f) (f_copy f) (f_lock f) (f_inner_mut f) (f_serde f).
Definition put_f_builder (v : option builder) (f : field) : field :=
  mk_field (f_ident f) (f_vis f) (f_ty f) (f_attrs f) (f_skip f) (f_mode f) (f_mode_sync f) (f_mode_async f) (f_attributes_fn f) (f_fallible f) (f_lazy f) (f_base_name f) (f_accessor f) (f_accessor_mut f) (f_setter f) (f_reader f) (f_writer f) (f_clearer f) (f_predicate f) (f_optional f) (f_public f) (f_private f) (f_default f) v (f_into f) (f_clone f) (f_copy f) (f_lock f) (f_inner_mut f) (f_serde f).
Definition put_f_into (v : option bool) (f : field) : field :=
  mk_field (f_ident f) (f_vis f) (f_ty f) (f_attrs f) (f_skip f) (f_mode f) (f_mode_sync f) (f_mode_async f) (f_attributes_fn f) (f_fallible f) (f_lazy f) (f_base_name f) (f_accessor f) (f_accessor_mut f) (f_setter f) (f_reader f) (f_writer f) (f_clearer f) (f_predicate f) (f_optional f) (f_public f) (f_private f) (f_default f) (f_builder f) v (f_clone f) (f_copy f) (f_lock f) (f_inner_mut f) (f_serde f).
Definition put_f_clone (v : option bool) (f : field) : field :=
  mk_field (f_ident f) (f_vis f) (f_ty f) (f_attrs f) (f_skip f) (f_mode f) (f_mode_sync f) (f_mode_async f) (f_attributes_fn f) (f_fallible f) (f_lazy f) (f_base_name f) (f_accessor f) (f_accessor_mut f) (f_setter f) (f_reader f) (f_writer f) (f_clearer f) (f_predicate f) (f_optional f) (f_public f) (f_private f) (f_default f) (f_builder f) (f_into f) v (f_copy f) (f_lock f) (f_inner_mut f) (f_serde f).
Definition put_f_copy (v : option bool) (f : field) : field :=
  mk_field (f_ident f) (f_vis f) (f_ty f) (f_attrs f) (f_skip f) (f_mode f) (f_mode_sync f) (f_mode_async f) (f_attributes_fn f) (f_fallible f) (f_lazy f) (f_base_name f) (f_accessor f) (f_accessor_mut f) (f_setter f) (f_reader f) (f_writer f) (f_clearer f) (f_predicate f) (f_optional f) (f_public f) (f_private f) (f_default f) (f_builder f) (f_into f) (f_clone f) v (f_lock f) (f_inner_mut f) (f_serde f).
Definition put_f_lock (v : option bool) (f : field) : field :=
  mk_field (f_ident f) (f_vis f) (f_ty f) (f_attrs f) (f_skip f) (f_mode f) (f_mode_sync f) (f_mode_async f) (f_attributes_fn f) (f_fallible f) (f_lazy f) (f_base_name f) (f_accessor f) (f_accessor_mut f) (f_setter f) (f_reader f) (f_writer f) (f_clearer f) (f_predicate f) (f_optional f) (f_public f) (f_private f) (f_default f) (f_builder f) (f_into f) (f_clone f) (f_copy f) v (f_inner_mut f) (f_serde f).
Definition put_f_inner_mut (v : option bool) (f : field) : field :=
  mk_field (f_ident f) (f_vis f) (f_ty f) (f_attrs f) (f_skip f) (f_mode f) (f_mode_sync f) (f_mode_async f) (f_attributes_fn f) (f_fallible f) (f_lazy f) (f_base_name f) (f_accessor f) (f_accessor_mut f) (f_setter f) (f_reader f) (f_writer f) (f_clearer f) (f_predicate f) (f_optional f) (f_public f) (f_private f) (f_default f) (f_builder f) (f_into f) (f_clone f) (f_copy f) (f_lock f) v (f_serde f).
Definition put_f_serde (v : option serde) (f : field) : field :=
  mk_field (f_ident f) (f_vis f) (f_ty f) (f_attrs f) (f_skip f) (f_mode f) (f_mode_sync f) (f_mode_async f) (f_attributes_fn f) (f_fallible f) (f_lazy f) (f_base_name f) (f_accessor f) (f_accessor_mut f) (f_setter f) (f_reader f) (f_writer f) (f_clearer f) (f_predicate f) (f_optional f) (f_public f) (f_private f) (f_default f) (f_builder f) (f_into f) (f_clone f) (f_copy f) (f_lock f) (f_inner_mut f) v.
Definition put_s_mode (v : option syncmode) (s : sargs) : sargs :=
  mk_sargs v (s_mode_sync s) (s_mode_async s) (s_builder s) (s_into s) (s_no_new s) (s_default s) (s_rc s) (s_attributes s) (s_attributes_impl s) (s_fallible s) (s_lazy s) (s_accessor s) (s_accessor_mut s) (s_setter s) (s_reader s) (s_writer s) (s_clearer s) (s_predicate s) (s_optional s) (s_public s) (s_private s) (s_clone s) (s_copy s) (s_lock s) (s_inner_mut s) (s_serde s).
Definition put_s_mode_sync (v : option bool) (s : sargs) : sargs :=
  mk_sargs (s_mode s) v (s_mode_async s) (s_builder s) (s_into s) (s_no_new s) (s_default s) (s_rc s) (s_attributes s) (s_attributes_impl s) (s_fallible s) (s_lazy s) (s_accessor s) (s_accessor_mut s) (s_setter s) (s_reader s) (s_writer s) (s_clearer s) (s_predicate s) (s_optional s) (s_public s) (s_private s) (s_clone s) (s_copy s) (s_lock s) (s_inner_mut s) (s_serde s).
Definition put_s_mode_async (v : option bool) (s : sargs) : sargs :=
  mk_sargs (s_mode s) (s_mode_sync s) v (s_builder s) (s_into s) (s_no_new s) (s_default s) (s_rc s) (s_attributes s) (s_attributes_impl s) (s_fallible s) (s_lazy s) (s_accessor s) (s_accessor_mut s) (s_setter s) (s_reader s) (s_writer s) (s_clearer s) (s_predicate s) (s_optional s) (s_public s) (s_private s) (s_clone s) (s_copy s) (s_lock s) (s_inner_mut s) (s_serde s).
Definition put_s_builder (v : option builder) (s : sargs) : sargs :=
  mk_sargs (s_mode s) (s_mode_sync s) (s_mode_async s) v (s_into s) (s_no_new s) (s_default s) (s_rc s) (s_attributes s) (s_attributes_impl s) (s_fallible s) (s_lazy s) (s_accessor s) (s_accessor_mut s) (s_setter s) (s_reader s) (s_writer s) (s_clearer s) (s_predicate s) (s_optional s) (s_public s) (s_private s) (s_clone s) (s_copy s) (s_lock s) (s_inner_mut s) (s_serde s).
Definition put_s_into (v : option bool) (s : sargs) : sargs :=
  mk_sargs (s_mode s) (s_mode_sync s) (s_mode_async s) (s_builder s) v (s_no_new s) (s_default s) (s_rc s) (s_attributes s) (s_attributes_impl s) (s_fallible s) (s_lazy s) (s_accessor s) (s_accessor_mut s) (s_setter s) (s_reader s) (s_writer s) (s_clearer s) (s_predicate s) (s_optional s) (s_public s) (s_private s) (s_clone s) (s_copy s) (s_lock s) (s_inner_mut s) (s_serde s).
Definition put_s_no_new (v : option bool) (s : sargs) : sargs :=
  mk_sargs (s_mode s) (s_mode_sync s) (s_mode_async s) (s_builder s) (s_into s) v (s_default s) (s_rc s) (s_attributes s) (s_attributes_impl s) (s_fallible s) (s_lazy s) (s_accessor s) (s_accessor_mut s) (s_setter s) (s_reader s) (s_writer s) (s_clearer s) (s_predicate s) (s_optional s) (s_public s) (s_private s) (s_clone s) (s_copy s) (s_lock s) (s_inner_mut s) (s_serde s).
Definition put_s_default (v : option bool) (s : sargs) : sargs :=
  mk_sargs (s_mode s) (s_mode_sync s) (s_mode_async s) (s_builder s) (s_into s) (s_no_new s) v (s_rc s) (s_attributes s) (s_attributes_impl s) (s_fallible s) (s_lazy s) (s_accessor s) (s_accessor_mut s) (s_setter s) (s_reader s) (s_writer s) (s_clearer s) (s_predicate s) (s_optional s) (s_public s) (s_private s) (s_clone s) (s_copy s) (s_lock s) (s_inner_mut s) (s_serde s).
Definition put_s_rc (v : option helper) (s : sargs) : sargs :=
  mk_sargs (s_mode s) (s_mode_sync s) (s_mode_async s) (s_builder s) (s_into s) (s_no_new s) (s_default s) v (s_attributes s) (s_attributes_impl s) (s_fallible s) (s_lazy s) (s_accessor s) (s_accessor_mut s) (s_setter s) (s_reader s) (s_writer s) (s_clearer s) (s_predicate s) (s_optional s) (s_public s) (s_private s) (s_clone s) (s_copy s) (s_lock s) (s_inner_mut s) (s_serde s).
Definition put_s_attributes (v : option (list string)) (s : sargs) : sargs :=
  mk_sargs (s_mode s) (s_mode_sync s) (s_mode_async s) (s_builder s) (s_into s) (s_no_new s) (s_default s) (s_rc s) v (s_attributes_impl s) (s_fallible s) (s_lazy s) (s_accessor s) (s_accessor_mut s) (s_setter s) (s_reader s) (s_writer s) (s_clearer s) (s_predicate s) (s_optional s) (s_public s) (s_private s) (s_clone s) (s_copy s) (s_lock s) (s_inner_mut s) (s_serde s).
Definition put_s_attributes_impl (v : option (list string)) (s : sargs) : sargs :=
  mk_sargs (s_mode s) (s_mode_sync s) (s_mode_async s) (s_builder s) (s_into s) (s_no_new s) (s_default s) (s_rc s) (s_attributes s) v (s_fallible s) (s_lazy s) (s_accessor s) (s_accessor_mut s) (s_setter s) (s_reader s) (s_writer s) (s_clearer s) (s_predicate s) (s_optional s) (s_public s) (s_private s) (s_clone s) (s_copy s) (s_lock s) (s_inner_mut s) (s_serde s).
Definition put_s_fallible (v : option fallible) (s : sargs) : sargs :=
  mk_sargs (s_mode s) (s_mode_sync s) (s_mode_async s) (s_builder s) (s_into s) (s_no_new s) (s_default s) (s_rc s) (s_attributes s) (s_attributes_impl s) v (s_lazy s) (s_accessor s) (s_accessor_mut s) (s_setter s) (s_reader s) (s_writer s) (s_clearer s) (s_predicate s) (s_optional s) (s_public s) (s_private s) (s_clone s) (s_copy s) (s_lock s) (s_inner_mut s) (s_serde s).
Definition put_s_lazy (v : option helper) (s : sargs) : sargs :=
  mk_sargs (s_mode s) (s_mode_sync s) (s_mode_async s) (s_builder s) (s_into s) (s_no_new s) (s_default s) (s_rc s) (s_attributes s) (s_attributes_impl s) (s_fallible s) v (s_accessor s) (s_accessor_mut s) (s_setter s) (s_reader s) (s_writer s) (s_clearer s) (s_predicate s) (s_optional s) (s_public s) (s_private s) (s_clone s) (s_copy s) (s_lock s) (s_inner_mut s) (s_serde s).
Definition put_s_accessor (v : option accessor) (s : sargs) : sargs :=
  mk_sargs (s_mode s) (s_mode_sync s) (s_mode_async s) (s_builder s) (s_into s) (s_no_new s) (s_default s) (s_rc s) (s_attributes s) (s_attributes_impl s) (s_fallible s) (s_lazy s) v (s_accessor_mut s) (s_setter s) (s_reader s) (s_writer s) (s_clearer s) (s_predicate s) (s_optional s) (s_public s) (s_private s) (s_clone s) (s_copy s) (s_lock s) (s_inner_mut s) (s_serde s).
Definition put_s_accessor_mut (v : option helper) (s : sargs) : sargs :=
  mk_sargs (s_mode s) (s_mode_sync s) (s_mode_async s) (s_builder s) (s_into s) (s_no_new s) (s_default s) (s_rc s) (s_attributes s) (s_attributes_impl s) (s_fallible s) (s_lazy s) (s_accessor s) v (s_setter s) (s_reader s) (s_writer s) (s_clearer s) (s_predicate s) (s_optional s) (s_public s) (s_private s) (s_clone s) (s_copy s) (s_lock s) (s_inner_mut s) (s_serde s).
Definition put_s_setter (v : option setter) (s : sargs) : sargs :=
  mk_sargs (s_mode s) (s_mode_sync s) (s_mode_async s) (s_builder s) (s_into s) (s_no_new s) (s_default s) (s_rc s) (s_attributes s) (s_attributes_impl s) (s_fallible s) (s_lazy s) (s_accessor s) (s_accessor_mut s) v (s_reader s) (s_writer s) (s_clearer s) (s_predicate s) (s_optional s) (s_public s) (s_private s) (s_clone s) (s_copy s) (s_lock s) (s_inner_mut s) (s_serde s).
Definition put_s_reader (v : option helper) (s : sargs) : sargs :=
  mk_sargs (s_mode s) (s_mode_sync s) (s_mode_async s) (s_builder s) (s_into s) (s_no_new s) (s_default s) (s_rc s) (s_attributes s) (s_attributes_impl s) (s_fallible s) (s_lazy s) (s_accessor s) (s_accessor_mut s) (s_setter s) v (s_writer s) (s_clearer s) (s_predicate s) (s_optional s) (s_public s) (s_private s) (s_clone s) (s_copy s) (s_lock s) (s_inner_mut s) (s_serde s).
Definition put_s_writer (v : option helper) (s : sargs) : sargs :=
  mk_sargs (s_mode s) (s_mode_sync s) (s_mode_async s) (s_builder s) (s_into s) (s_no_new s) (s_default s) (s_rc s) (s_attributes s) (s_attributes_impl s) (s_fallible s) (s_lazy s) (s_accessor s) (s_accessor_mut s) (s_setter s) (s_reader s) v (s_clearer s) (s_predicate s) (s_optional s) (s_public s) (s_private s) (s_clone s) (s_copy s) (s_lock s) (s_inner_mut s) (s_serde s).
Definition put_s_clearer (v : option helper) (s : sargs) : sargs :=
  mk_sargs (s_mode s) (s_mode_sync s) (s_mode_async s) (s_builder s) (s_into s) (s_no_new s) (s_default s) (s_rc s) (s_attributes s) (s_attributes_impl s) (s_fallible s) (s_lazy s) (s_accessor s) (s_accessor_mut s) (s_setter s) (s_reader s) (s_writer s) v (s_predicate s) (s_optional s) (s_public s) (s_private s) (s_clone s) (s_copy s) (s_lock s) (s_inner_mut s) (s_serde s).
Definition put_s_predicate (v : option helper) (s : sargs) : sargs :=
  mk_sargs (s_mode s) (s_mode_sync s) (s_mode_async s) (s_builder s) (s_into s) (s_no_new s) (s_default s) (s_rc s) (s_attributes s) (s_attributes_impl s) (s_fallible s) (s_lazy s) (s_accessor s) (s_accessor_mut s) (s_setter s) (s_reader s) (s_writer s) (s_clearer s) v (s_optional s) (s_public s) (s_private s) (s_clone s) (s_copy s) (s_lock s) (s_inner_mut s) (s_serde s).
Definition put_s_optional (v : option bool) (s : sargs) : sargs :=
  mk_sargs (s_mode s) (s_mode_sync s) (s_mode_async s) (s_builder s) (s_into s) (s_no_new s) (s_default s) (s_rc s) (s_attributes s) (s_attributes_impl s) (s_fallible s) (s_lazy s) (s_accessor s) (s_accessor_mut s) (s_setter s) (s_reader s) (s_writer s) (s_clearer s) (s_predicate s) v (s_public s) (s_private s) (s_clone s) (s_copy s) (s_lock s) (s_inner_mut s) (s_serde s).
Definition put_s_public (v : option pubmode) (s : sargs) : sargs :=
  mk_sargs (s_mode s) (s_mode_sync s) (s_mode_async s) (s_builder s) (s_into s) (s_no_new s) (s_default s) (s_rc s) (s_attributes s) (s_attributes_impl s) (s_fallible s) (s_lazy s) (s_accessor s) (s_accessor_mut s) (s_setter s) (s_reader s) (s_writer s) (s_clearer s) (s_predicate s) (s_optional s) v (s_private s) (s_clone s) (s_copy s) (s_lock s) (s_inner_mut s) (s_serde s).
Definition put_s_private (v : option bool) (s : sargs) : sargs :=
  mk_sargs (s_mode s) (s_mode_sync s) (s_mode_async s) (s_builder s) (s_into s) (s_no_new s) (s_default s) (s_rc s) (s_attributes s) (s_attributes_impl s) (s_fallible s) (s_lazy s) (s_accessor s) (s_accessor_mut s) (s_setter s) (s_reader s) (s_writer s) (s_clearer s) (s_predicate s) (s_optional s) (s_public s) v (s_clone s) (s_copy s) (s_lock s) (s_inner_mut s) (s_serde s).
Definition put_s_clone (v : option bool) (s : sargs) : sargs :=
  mk_sargs (s_mode s) (s_mode_sync s) (s_mode_async s) (s_builder s) (s_into s) (s_no_new s) (s_default s) (s_rc s) (s_attributes s) (s_attributes_impl s) (s_fallible s) (s_lazy s) (s_accessor s) (s_accessor_mut s) (s_setter s) (s_reader s) (s_writer s) (s_clearer s) (s_predicate s) (s_optional s) (s_public s) (s_private s) v (s_copy s) (s_lock s) (s_inner_mut s) (s_serde s).
Definition put_s_copy (v : option bool) (s : sargs) : sargs :=
  mk_sargs (s_mode s) (s_mode_sync s) (s_mode_async s) (s_builder s) (s_into s) (s_no_new s) (s_default s) (s_rc s) (s_attributes s) (s_attributes_impl s) (s_fallible s) (s_lazy s) (s_accessor s) (s_accessor_mut s) (s_setter s) (s_reader s) (s_writer s) (s_clearer s) (s_predicate s) (s_optional s) (s_public s) (s_private s) (s_clone s) v (s_lock s) (s_inner_mut s) (s_serde s).
Definition put_s_lock (v : option bool) (s : sargs) : sargs :=
  mk_sargs (s_mode s) (s_mode_sync s) (s_mode_async s) (s_builder s) (s_into s) (s_no_new s) (s_default s) (s_rc s) (s_attributes s) (s_attributes_impl s) (s_fallible s) (s_lazy s) (s_accessor s) (s_accessor_mut s) (s_setter s) (s_reader s) (s_writer s) (s_clearer s) (s_predicate s) (s_optional s) (s_public s) (s_private s) (s_clone s) (s_copy s) v (s_inner_mut s) (s_serde s).
Definition put_s_inner_mut (v : option bool) (s : sargs) : sargs :=
  mk_sargs (s_mode s) (s_mode_sync s) (s_mode_async s) (s_builder s) (s_into s) (s_no_new s) (s_default s) (s_rc s) (s_attributes s) (s_attributes_impl s) (s_fallible s) (s_lazy s) (s_accessor s) (s_accessor_mut s) (s_setter s) (s_reader s) (s_writer s) (s_clearer s) (s_predicate s) (s_optional s) (s_public s) (s_private s) (s_clone s) (s_copy s) (s_lock s) v (s_serde s).
Definition put_s_serde (v : option serde) (s : sargs) : sargs :=
  mk_sargs (s_mode s) (s_mode_sync s) (s_mode_async s) (s_builder s) (s_into s) (s_no_new s) (s_default s) (s_rc s) (s_attributes s) (s_attributes_impl s) (s_fallible s) (s_lazy s) (s_accessor s) (s_accessor_mut s) (s_setter s) (s_reader s) (s_writer s) (s_clearer s) (s_predicate s) (s_optional s) (s_public s) (s_private s) (s_clone s) (s_copy s) (s_lock s) (s_inner_mut s) v.

(** [arg], [arg(off)], [arg("name")], [arg(public...)]. *)
Definition h_on : option helper := Some helper_default.
Definition h_no : option helper := Some (mk_helper true None None None None).
Definition h_named (n : string) : option helper :=
  Some (mk_helper false (Some (mk_strarg false (Some n))) None None None).
Definition h_pub (p : pubmode) : option helper :=
  Some (mk_helper false None None (Some p) None).
Definition h_attrs (l : list string) : option helper :=
  Some (mk_helper false None (Some l) None None).
Definition get_on : option accessor := Some (mk_accessor helper_default false false false).
Definition get_off : option accessor :=
  Some (mk_accessor (mk_helper true None None None None) false false false).
Definition get_clone : option accessor := Some (mk_accessor helper_default true false false).
Definition get_copy : option accessor := Some (mk_accessor helper_default false true false).
Definition get_as_ref : option accessor := Some (mk_accessor helper_default false false true).
Definition set_on : option setter := Some (mk_setter helper_default None).
Definition bld_with (h : helper) : builder := mk_builder h None None None None None None None.
Definition bld_on : option builder := Some (bld_with helper_default).
Definition bld_off : option builder := Some (bld_with (mk_helper true None None None None)).
Definition bld_required : option builder :=
  Some (mk_builder helper_default None None None (Some true) None None None).
Definition bld_opt_in : option builder :=
  Some (mk_builder helper_default None None None None (Some true) None None).
Definition fall_on (e : string) : option fallible := Some (mk_fallible false (Some e)).
Definition serde_on : option serde := Some (mk_serde false None None None None None None None None).
Definition serde_off : option serde := Some (mk_serde true None None None None None None None None).
Definition def_val (v : string) : option defarg := Some (mk_defarg false (Some v) false).
Definition def_str (v : string) : option defarg := Some (mk_defarg false (Some v) true).
