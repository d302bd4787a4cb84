(** Properties of the emitted code: C29, C30, C38, C41 and the emission side of C31, C32
    and C37.  [method_ok t b copy clone m]: the body of method [m] type-checks against
    its signature when the field has type [t], the user's builder returns [b] and the
    declared type is Copy / Clone as told. *)
From Coq Require Import List Bool String.
From Verif Require Import ArgsModel CtxModel ArgsSpec ArgsFixtures ArgsProofs ArgsProps RustAst
  CommonGen PlainGen SyncGen RustTyping StructGen CodegenSpec CodegenProofs CodegenValues
  CodegenStruct.
Import ListNotations.
Open Scope string_scope.

(** Cases used below. *)
Definition plain_s : sargs := bare_sargs.
Definition sync_s : sargs := put_s_mode_sync (Some true) bare_sargs.
Definition async_s : sargs := put_s_mode_async (Some true) bare_sargs.
Definition serde_s : sargs := put_s_serde serde_on bare_sargs.
Definition no_errors (c : sctx) (f : field) : Prop :=
  field_errors f = [] /\ sargs_errors (c_args c) = [].
Definition kinds (r : gres (list mdecl)) : list hkind :=
  match r with GOk l => map m_kind l | _ => [] end.

(** A method that is emitted without any complaint from the macro and that does not
    type-check, even for a declared type that is Copy and Clone. *)
Definition ill_typed (c : sctx) (f : field) (k : hkind) : Prop :=
  exists t l m, field_type c f = GOk t /\ field_methods c f = GOk l /\ In m l /\ m_kind m = k /\
    method_ok t (user_builder (is_fallible c f)) true true m = false.
Ltac show_ill :=
  eexists; eexists; eexists;
  split; [vm_compute; reflexivity|]; split; [vm_compute; reflexivity|];
  split; [(left; reflexivity) || (right; left; reflexivity)|]; split; vm_compute; reflexivity.

(** ** C38: what is emitted *)

(** Generation succeeds whenever the error type of a fallible field is known. *)
Theorem C38_generated : forall c f, is_fallible c f = false \/ error_known c f = true ->
  (exists t, field_type c f = GOk t) /\ exists l, field_methods c f = GOk l.
Proof. exact methods_generated. Qed.
Example C38_generated_case :
  let f := put_f_fallible (fall_on "E") (put_f_lazy h_on fa) in
  let c := ctx_of sync_s [f] in
  (is_fallible c f = false \/ error_known c f = true) /\
  field_type c f = GOk (TProxy false true) /\
  field_type (ctx_of sync_s [f]) (put_f_fallible (Some (mk_fallible false None)) f)
  = GErr "is marked as fallible but its error type is unknown".
Proof. vm_compute. auto. Qed.

(** Exactly the methods asked for are emitted, each once. *)
Theorem C38_emitted_iff : forall c f l k, f_skip f = false -> field_methods c f = GOk l ->
  (In k (map m_kind l) <-> asked c f k = true).
Proof. exact emitted_iff. Qed.
Theorem C38_emitted_once : forall c f l, field_methods c f = GOk l -> NoDup (map m_kind l).
Proof. exact emitted_once. Qed.
Example C38_emitted_case :
  let f := put_f_lazy h_on (put_f_clearer h_on (put_f_setter set_on (put_f_reader h_on fa))) in
  f_skip f = false /\
  kinds (field_methods (ctx_of sync_s [f]) f) = [KAccessor; KReader; KSetter; KClearer] /\
  kinds (field_methods (ctx_of plain_s [f]) (put_f_mode (Some MPlain) f)) = [KAccessor; KSetter; KClearer].
Proof. vm_compute. auto. Qed.

(** Exactly which methods of a plain field type-check. *)
Theorem C38_plain_methods : forall c f cp cl t l m, is_sync c f = false ->
  type_bounds c f cp cl -> field_type c f = GOk t -> field_methods c f = GOk l -> In m l ->
  method_ok t (user_builder (is_fallible c f)) cp cl m
  = plain_well_typed (settings_of c f) (m_kind m).
Proof. exact methods_typed_plain. Qed.
(** Exactly which methods of a sync or async field type-check. *)
Theorem C38_sync_methods : forall c f cp cl t l m, is_sync c f = true ->
  type_bounds c f cp cl -> field_type c f = GOk t -> field_methods c f = GOk l -> In m l ->
  method_ok t (user_builder (is_fallible c f)) cp cl m
  = sync_well_typed (settings_of c f) (m_kind m).
Proof. exact methods_typed_sync. Qed.
Example C38_plain_methods_case :
  let f := put_f_lazy h_on (put_f_accessor get_clone (put_f_clearer h_on (put_f_predicate h_on
             (put_f_accessor_mut h_on (put_f_setter set_on (put_f_fallible (fall_on "E") fa)))))) in
  let c := ctx_of plain_s [f] in
  is_sync c f = false /\ type_bounds c f false true /\ field_type c f = GOk (TOnce TT) /\
  kinds (field_methods c f) = [KAccessor; KAccessorMut; KSetter; KClearer; KPredicate] /\
  map (plain_well_typed (settings_of c f)) (kinds (field_methods c f))
  = [true; true; true; true; true].
Proof. vm_compute. repeat split; auto. discriminate. Qed.
Example C38_sync_methods_case :
  let f := put_f_accessor get_clone (put_f_accessor_mut h_on (put_f_reader h_on (put_f_clearer h_on fa))) in
  let c := ctx_of async_s [f] in
  is_sync c f = true /\ type_bounds c f false true /\
  field_type c f = GOk (TLock true (TOpt TT)) /\
  kinds (field_methods c f) = [KAccessor; KAccessorMut; KReader; KClearer] /\
  map (sync_well_typed (settings_of c f)) (kinds (field_methods c f))
  = [false; false; true; true].
Proof. vm_compute. repeat split; auto. discriminate. Qed.

(** Full statement: everything emitted for an accepted configuration type-checks.
    Missing: the configurations of the refutations below, which the hypotheses exclude. *)
Theorem C38_ordinary_plain_partial : forall c f cp cl t l m, is_sync c f = false ->
  nothing_forced_off c f -> ordinary_plain (settings_of c f) ->
  type_bounds c f cp cl -> field_type c f = GOk t -> field_methods c f = GOk l -> In m l ->
  method_ok t (user_builder (is_fallible c f)) cp cl m = true.
Proof. exact ordinary_plain_compiles. Qed.
Theorem C38_ordinary_sync_partial : forall c f cp cl t l m, is_sync c f = true ->
  nothing_forced_off c f -> ordinary_sync (settings_of c f) ->
  (is_async c f = true -> is_lazy c f = false -> needs_lock c f = true ->
   needs_accessor_mut c f = false) ->
  type_bounds c f cp cl -> field_type c f = GOk t -> field_methods c f = GOk l -> In m l ->
  method_ok t (user_builder (is_fallible c f)) cp cl m = true.
Proof. exact ordinary_sync_compiles. Qed.
Example C38_ordinary_plain_case :
  let f := put_f_optional (Some true) (put_f_inner_mut (Some true) (put_f_accessor get_clone
             (put_f_setter set_on (put_f_predicate h_on fa)))) in
  let c := ctx_of plain_s [f] in
  is_sync c f = false /\ nothing_forced_off c f /\ ordinary_plain (settings_of c f) /\
  type_bounds c f false true /\ field_type c f = GOk (TCell (TOpt TT)) /\
  kinds (field_methods c f) = [KAccessor; KSetter; KPredicate].
Proof. unfold nothing_forced_off, ordinary_plain, type_bounds. vm_compute. repeat split; discriminate. Qed.
Example C38_ordinary_sync_case :
  let f := put_f_lazy h_on (put_f_fallible (fall_on "E") (put_f_accessor get_copy
             (put_f_writer h_on (put_f_accessor_mut h_on fa)))) in
  let c := ctx_of async_s [f] in
  is_sync c f = true /\ nothing_forced_off c f /\ ordinary_sync (settings_of c f) /\
  (is_async c f = true -> is_lazy c f = false -> needs_lock c f = true ->
   needs_accessor_mut c f = false) /\
  type_bounds c f true true /\ field_type c f = GOk (TProxy true true) /\
  kinds (field_methods c f) = [KAccessor; KAccessorMut; KWriter].
Proof. unfold nothing_forced_off, ordinary_sync, type_bounds. vm_compute. repeat split; discriminate. Qed.

(** The setter in the builder type always type-checks. *)
Theorem C38_builder_setter : forall c f m b cp cl, In (f_ident f, m) (builder_setters c) ->
  method_ok (TOpt TT) b cp cl m = true /\ m_kind m = KBuilder.
Proof. exact setter_typed. Qed.
Example C38_builder_setter_case :
  let c := ctx_of (put_s_builder bld_on (put_s_into (Some true) bare_sargs)) [fa; fb] in
  map (fun p => (fst p, m_name (snd p), m_arg (snd p))) (builder_setters c)
  = [("a", "a", Some TIntoT); ("b", "b", Some TIntoT)].
Proof. vm_compute. reflexivity. Qed.

(** *** Configurations accepted by the macro whose code does not type-check *)

(** [lazy, get(as_ref)]. *)
Theorem C38_lazy_as_ref_refuted : exists c f, no_errors c f /\ ill_typed c f KAccessor.
Proof.
  exists (ctx_of plain_s []), (put_f_lazy h_on (put_f_accessor get_as_ref fa)).
  split; [split; reflexivity|show_ill].
Qed.
(** [optional, inner_mut, get(as_ref)]. *)
Theorem C38_inner_mut_as_ref_refuted : exists c f, no_errors c f /\
  is_optional c f = true /\ ill_typed c f KAccessor.
Proof.
  exists (ctx_of plain_s []),
    (put_f_optional (Some true) (put_f_inner_mut (Some true) (put_f_accessor get_as_ref fa))).
  split; [split; reflexivity|]. split; [reflexivity|show_ill].
Qed.
(** [inner_mut] for the struct, [lazy, clearer] for the field. *)
Theorem C38_lazy_inner_mut_clearer_refuted : exists c f, no_errors c f /\ ill_typed c f KClearer.
Proof.
  exists (ctx_of (put_s_inner_mut (Some true) bare_sargs) []),
    (put_f_lazy h_on (put_f_accessor get_off (put_f_clearer h_on fa))).
  split; [split; reflexivity|show_ill].
Qed.
(** [inner_mut, get, copy(off)]. *)
Theorem C38_copy_off_inner_mut_refuted : exists c f, no_errors c f /\ ill_typed c f KAccessor.
Proof.
  exists (ctx_of plain_s []),
    (put_f_inner_mut (Some true) (put_f_accessor get_on (put_f_copy (Some false) fa))).
  split; [split; reflexivity|show_ill].
Qed.
(** async struct, [lock, get(clone)]: the future of read() is not awaited. *)
Theorem C38_async_lock_clone_refuted : exists c f, no_errors c f /\ ill_typed c f KAccessor.
Proof.
  exists (ctx_of async_s []), (put_f_lock (Some true) (put_f_accessor get_clone fa)).
  split; [split; reflexivity|show_ill].
Qed.
(** async struct, [lock, get_mut]. *)
Theorem C38_async_lock_get_mut_refuted : exists c f, no_errors c f /\ ill_typed c f KAccessorMut.
Proof.
  exists (ctx_of async_s []), (put_f_lock (Some true) (put_f_accessor_mut h_on fa)).
  split; [split; reflexivity|show_ill].
Qed.
(** sync struct, [fallible(E), get]: neither lazy nor locked. *)
Theorem C38_fallible_not_lazy_refuted : exists c f, no_errors c f /\ ill_typed c f KAccessor.
Proof.
  exists (ctx_of sync_s []), (put_f_fallible (fall_on "E") (put_f_accessor get_on fa)).
  split; [split; reflexivity|show_ill].
Qed.
(** sync struct with [lock(off)], [reader]. *)
Theorem C38_reader_lock_off_refuted : exists c f, no_errors c f /\ ill_typed c f KReader.
Proof.
  exists (ctx_of (put_s_lock (Some false) sync_s) []), (put_f_reader h_on fa).
  split; [split; reflexivity|show_ill].
Qed.
(** sync struct, [clearer, optional(off), get(off)]. *)
Theorem C38_clearer_optional_off_refuted : exists c f, no_errors c f /\ ill_typed c f KClearer.
Proof.
  exists (ctx_of sync_s []),
    (put_f_optional (Some false) (put_f_accessor get_off (put_f_clearer h_on fa))).
  split; [split; reflexivity|show_ill].
Qed.
(** plain struct, the same. *)
Theorem C38_plain_clearer_optional_off_refuted : exists c f, no_errors c f /\ ill_typed c f KClearer.
Proof.
  exists (ctx_of plain_s []),
    (put_f_optional (Some false) (put_f_accessor get_off (put_f_clearer h_on fa))).
  split; [split; reflexivity|show_ill].
Qed.
(** [optional] for a sync struct, [lazy, get(clone)] for the field. *)
Theorem C38_lazy_optional_clone_refuted : exists c f, no_errors c f /\ ill_typed c f KAccessor.
Proof.
  exists (ctx_of (put_s_optional (Some true) sync_s) []),
    (put_f_lazy h_on (put_f_accessor get_clone fa)).
  split; [split; reflexivity|show_ill].
Qed.

(** ** C38: values *)

(** The value in Default, for every field that is not skipped. *)
Theorem C38_default_value : forall c f us b t, field_type c f = GOk t -> f_skip f = false -> exists e,
  field_default c f = GOk e /\ has_type (in_default us b) e t = true.
Proof. exact default_typed. Qed.
(** The value in From<Shadow>. *)
Theorem C38_from_shadow_value : forall c f us b t, field_type c f = GOk t -> f_skip f = false -> exists e,
  field_from_shadow c f = GOk e /\ has_type (in_from_shadow us (cfg_of c f) b) e t = true.
Proof. exact from_shadow_typed. Qed.
(** The value in build() of a plain field. *)
Theorem C38_build_value_plain : forall c f us b t, is_sync c f = false -> field_type c f = GOk t ->
  exists e, field_build_value c f = GOk e /\ has_type (in_build us b) e t = true.
Proof. exact build_typed_plain. Qed.
(** The value in build() of a sync field; [us]: the default expression mentions Self. *)
Theorem C38_build_value_sync : forall c f us b t, is_sync c f = true -> field_type c f = GOk t ->
  f_skip f = false -> bare_default f && (is_lazy c f || is_optional c f) = false -> exists e,
  field_build_value c f = GOk e /\
  has_type (in_build us b) e t
  = negb (us && match default_value f with Some _ => true | None => false end)
    || self_corrected c f.
Proof. exact build_typed_sync. Qed.
(** The value in From<Struct> for the shadow. *)
Theorem C38_into_shadow_value : forall c f us b t, field_type c f = GOk t -> f_skip f = false ->
  has_type (in_into_shadow us t b) (field_from_struct c f) (shadow_type (cfg_of c f))
  = negb (is_sync c f && negb (is_lazy c f) && is_optional c f && negb (needs_lock c f)).
Proof. exact from_struct_typed. Qed.
Example C38_values_case :
  let f := put_f_default (def_val "Self::D") (put_f_lock (Some true) (put_f_builder bld_on fa)) in
  let c := ctx_of sync_s [f] in
  let g := put_f_lazy h_on f in
  f_skip f = false /\ is_sync c f = true /\ field_type c f = GOk (TLock false TT) /\
  bare_default f && (is_lazy c f || is_optional c f) = false /\
  field_default c f = GOk (EC1 (PLockNew false) (EUser "Self::D" false)) /\
  (self_corrected c f = false /\ self_corrected c g = true) /\
  field_default c g = GOk (EC2 (PProxyNew false false) (EC0 (PWrapBuilder false false))
                             (EC1 PSome (EUser "Self::D" false))).
Proof. vm_compute. auto 12. Qed.

(** sync struct, [lock, builder, default(Self::D)]: in build() Self is the builder. *)
Theorem C38_build_self_refuted : exists c f b t e, no_errors c f /\ field_type c f = GOk t /\
  field_build_value c f = GOk e /\ has_type (in_build true b) e t = false.
Proof.
  exists (ctx_of sync_s []),
    (put_f_default (def_val "Self::D") (put_f_lock (Some true) (put_f_builder bld_on fa))), TT.
  eexists. eexists. split; [split; reflexivity|].
  split; [vm_compute; reflexivity|]. split; [vm_compute; reflexivity|]. vm_compute. reflexivity.
Qed.
(** sync struct, [lazy, builder, default]: the macro panics. *)
Theorem C38_bare_default_panics : forall c f t, is_sync c f = true -> field_type c f = GOk t ->
  bare_default f && (is_lazy c f || is_optional c f) = true ->
  exists msg, field_build_value c f = GPanic msg.
Proof. exact build_panics_sync. Qed.
Theorem C38_bare_default_refuted : exists c f msg, no_errors c f /\
  field_type c f = GOk (TProxy false false) /\ f_skip f = false /\ field_build_value c f = GPanic msg.
Proof.
  exists (ctx_of sync_s []), (put_f_default (Some default_from_word) (put_f_lazy h_on fa)).
  eexists. split; [split; reflexivity|]. split; [|split]; vm_compute; reflexivity.
Qed.
(** sync struct with serde and [lock(off)], [optional]. *)
Theorem C38_into_shadow_refuted : exists c f t, no_errors c f /\ is_serde c f = true /\
  field_type c f = GOk t /\
  forall us b, has_type (in_into_shadow us t b) (field_from_struct c f) (shadow_type (cfg_of c f)) = false.
Proof.
  exists (ctx_of (put_s_lock (Some false) (put_s_serde serde_on sync_s)) []), (put_f_optional (Some true) fa).
  eexists. split; [split; reflexivity|]. split; [reflexivity|]. split; [vm_compute; reflexivity|].
  intros us b. vm_compute. reflexivity.
Qed.

(** ** C38: struct literals *)
Theorem C38_default_literal : forall c, NoDup (map f_ident (all_fields c)) ->
  complete (lit_idents (default_literal c)) (lit_base (default_literal c)) (map fst (struct_fields c)).
Proof. exact default_complete. Qed.
Theorem C38_from_shadow_literal : forall c, NoDup (map f_ident (all_fields c)) ->
  struct_serde (c_args c) = true ->
  (complete (lit_idents (from_shadow_literal c)) (lit_base (from_shadow_literal c))
     (map fst (struct_fields c))
   <-> needs_default c = true \/ forall f, In f (all_fields c) -> field_deserializes f = true).
Proof. exact from_shadow_complete. Qed.
Theorem C38_into_shadow_literal : forall c, NoDup (map f_ident (all_fields c)) ->
  struct_serde (c_args c) = true ->
  (complete (lit_idents (into_shadow_literal c)) (lit_base (into_shadow_literal c))
     (map fst (shadow_fields c))
   <-> forall f, In f (all_fields c) -> field_deserializes f = true -> field_serializes f = true).
Proof. exact into_shadow_complete. Qed.
(** new() of the builder type and the type itself have the same fields, unless [rc] is
    switched off explicitly. *)
Theorem C38_builder_new : forall c, NoDup (builder_new_fields c) ->
  (complete (builder_new_fields c) false (builder_fields c)
   <-> s_is_ref_counted (c_args c) = true \/ myself_field c = None).
Proof. exact builder_new_complete. Qed.

Definition deser_only : option serde :=
  Some (mk_serde false None None None (Some false) None None None None).
Ltac nodup := vm_compute; repeat constructor; cbn; intuition discriminate.
Example C38_literals_case :
  let f := put_f_serde serde_off fb in
  let c := ctx_of (put_s_rc h_on bare_sargs) [fa; fb] in
  let d := ctx_of (put_s_no_new (Some true) serde_s) [fa; f] in
  NoDup (map f_ident (all_fields c)) /\ NoDup (builder_new_fields c) /\
  map f_ident (all_fields c) = ["__weak_myself"; "a"; "b"] /\
  builder_fields c = ["__weak_myself"; "a"; "b"] /\
  lit_idents (default_literal c) = ["__weak_myself"; "a"; "b"] /\
  NoDup (map f_ident (all_fields d)) /\ struct_serde (c_args d) = true /\
  lit_idents (from_shadow_literal d) = ["a"] /\ needs_default d = false /\
  lit_idents (into_shadow_literal d) = ["a"] /\ map fst (shadow_fields d) = ["a"].
Proof. cbv zeta. repeat match goal with |- _ /\ _ => split end; try nodup; vm_compute; reflexivity. Qed.
(** serde, [no_new] and a field with [serde(off)]: From<Shadow> misses the field. *)
Theorem C38_from_shadow_literal_refuted : exists c, sargs_errors (c_args c) = [] /\
  Forall (fun f => field_errors f = []) (c_input_fields c) /\ from_shadow_emitted c = true /\
  NoDup (map f_ident (all_fields c)) /\
  ~ complete (lit_idents (from_shadow_literal c)) (lit_base (from_shadow_literal c))
      (map fst (struct_fields c)).
Proof.
  exists (ctx_of (put_s_no_new (Some true) serde_s) [fa; put_f_serde serde_off fb]).
  split; [reflexivity|]. split; [repeat constructor|]. split; [reflexivity|]. split; [nodup|].
  vm_compute. intros (_ & _ & H). specialize (H eq_refl "b"). cbn in H. intuition discriminate.
Qed.
(** serde and a field with [serde(serialize(off))]: From<Struct> misses the field. *)
Theorem C38_into_shadow_literal_refuted : exists c, sargs_errors (c_args c) = [] /\
  Forall (fun f => field_errors f = []) (c_input_fields c) /\ into_shadow_emitted c = true /\
  NoDup (map f_ident (all_fields c)) /\
  ~ complete (lit_idents (into_shadow_literal c)) (lit_base (into_shadow_literal c))
      (map fst (shadow_fields c)).
Proof.
  exists (ctx_of serde_s [fa; put_f_serde deser_only fb]).
  split; [reflexivity|]. split; [repeat constructor|]. split; [reflexivity|]. split; [nodup|].
  vm_compute. intros (_ & _ & H). specialize (H eq_refl "b"). cbn in H. intuition discriminate.
Qed.
(** [rc(off), builder]: new() of the builder initialises a field that does not exist. *)
Theorem C38_builder_new_refuted : exists c, sargs_errors (c_args c) = [] /\
  needs_builder_struct c = true /\ NoDup (builder_new_fields c) /\
  ~ complete (builder_new_fields c) false (builder_fields c).
Proof.
  exists (ctx_of (put_s_rc h_no (put_s_builder bld_on bare_sargs)) [fa]).
  split; [reflexivity|]. split; [reflexivity|]. split; [nodup|].
  vm_compute. intros (_ & H & _). specialize (H "__weak_myself"). cbn in H. intuition discriminate.
Qed.

(** ** C29: skip *)
Theorem C29_no_methods : forall c f, f_skip f = true -> field_methods c f = GOk [].
Proof. exact skip_no_methods. Qed.
Theorem C29_not_in_builder : forall c f, f_skip f = true -> ~ In f (builder_input c).
Proof. exact skip_not_in_builder. Qed.
Theorem C29_no_setter : forall c f m, f_skip f = true -> NoDup (map f_ident (all_fields c)) ->
  In f (all_fields c) -> ~ In (f_ident f, m) (builder_setters c).
Proof.
  intros c f m Hs Hn Hf H. apply in_flat_map in H. destruct H as (f' & Hf' & H).
  destruct (field_builder (cfg_of c f')); [|destruct H].
  destruct H as [H|[]]. injection H as E _. pose proof Hf' as Hb. apply filter_In in Hf'.
  rewrite (ident_inj _ f' f Hn (proj1 Hf') Hf E) in Hb. exact (skip_not_in_builder c f Hs Hb).
Qed.
Theorem C29_not_serialised : forall c f, f_skip f = true -> ~ In f (shadow_input c).
Proof.
  intros c f H Hin. apply filter_In in Hin. destruct (skip_settings c f H) as (_ & _ & E).
  rewrite E in Hin. destruct Hin. discriminate.
Qed.
(** The declared type is kept exactly for sync fields and plain ones without inner_mut. *)
Theorem C29_type_iff : forall c f t, f_skip f = true -> field_type c f = GOk t ->
  (t = TT <-> is_sync c f = true \/ is_inner_mut c f = false).
Proof. exact skip_type. Qed.
(** Its value in Default fits exactly when a sync field has no lock. *)
Theorem C29_default_iff : forall c f us b t, f_skip f = true -> field_type c f = GOk t -> exists e,
  field_default c f = GOk e /\
  has_type (in_default us b) e t = negb (is_sync c f && needs_lock c f).
Proof. exact skip_default. Qed.
(** Where the type is kept the default is the user's expression. *)
Theorem C29_default_respected : forall c f d, f_skip f = true -> default_value f = Some d ->
  (if is_sync c f then needs_lock c f else is_inner_mut c f) = false ->
  exists fixed, field_default c f = GOk (default_expr fixed d).
Proof.
  intros c f d Hs Hd Hk. destruct (skip_settings c f Hs) as (El & Eo & _).
  unfold field_default. destruct (is_sync c f).
  - exists false. unfold sync_default_wrap, field_default_value, sync_value_wrap. cbn.
    rewrite Hd, El, Eo, Hk. reflexivity.
  - exists true. unfold plain_default_wrap, field_default_value, plain_value_wrap. cbn.
    rewrite Hd, El, Eo, Hk. reflexivity.
Qed.
(** build() can be compiled only if no field of the struct is skipped. *)
Theorem C29_build_iff : forall c, NoDup (map f_ident (all_fields c)) -> all_built c ->
  (complete (lit_idents (build_literal c)) (lit_base (build_literal c)) (map fst (struct_fields c))
   <-> forall f, In f (c_input_fields c) -> f_skip f = false).
Proof. exact build_complete. Qed.
Example C29_case :
  let f := put_f_skip true (put_f_lazy h_on (put_f_accessor get_on (put_f_default (def_val "1")
             (put_f_builder bld_on fa)))) in
  let c := ctx_of (put_s_mode_sync (Some true) serde_s) [f; fb] in
  f_skip f = true /\ default_value f = Some ("1", false) /\ field_type c f = GOk TT /\
  needs_lock c f = false /\ field_methods c f = GOk [] /\ field_default c f = GOk (EUser "1" false) /\
  map f_ident (builder_input c) = ["b"] /\ map f_ident (shadow_input c) = ["b"] /\
  kinds (field_methods c (put_f_skip false f)) = [KAccessor] /\
  NoDup (map f_ident (all_fields c)) /\
  lit_idents (build_literal (ctx_of plain_s [fa; fb])) = ["a"; "b"].
Proof. cbv zeta. repeat match goal with |- _ /\ _ => split end; try nodup; vm_compute; reflexivity. Qed.
(** [skip, inner_mut]: the type is changed to a RefCell. *)
Theorem C29_type_refuted : exists c f, no_errors c f /\ f_skip f = true /\
  field_type c f = GOk (TCell TT).
Proof.
  exists (ctx_of plain_s []), (put_f_skip true (put_f_inner_mut (Some true) fa)).
  split; [split; reflexivity|]. split; vm_compute; reflexivity.
Qed.
(** sync struct with [reader], field with [skip]: the type is kept, the value is locked. *)
Theorem C29_default_refuted : exists c f e, no_errors c f /\ f_skip f = true /\
  field_type c f = GOk TT /\ field_default c f = GOk e /\
  forall us b, has_type (in_default us b) e TT = false.
Proof.
  exists (ctx_of (put_s_reader h_on sync_s) []), (put_f_skip true fa). eexists.
  split; [split; reflexivity|]. split; [reflexivity|]. split; [vm_compute; reflexivity|].
  split; [vm_compute; reflexivity|]. intros us b. vm_compute. reflexivity.
Qed.
(** A builder and a skipped field with a default: build() misses the field. *)
Theorem C29_build_refuted : exists c, sargs_errors (c_args c) = [] /\
  Forall (fun f => field_errors f = []) (c_input_fields c) /\ needs_builder_struct c = true /\
  needs_default c = true /\ NoDup (map f_ident (all_fields c)) /\ all_built c /\
  ~ complete (lit_idents (build_literal c)) (lit_base (build_literal c)) (map fst (struct_fields c)).
Proof.
  exists (ctx_of (put_s_builder bld_on bare_sargs) [put_f_skip true (put_f_default (def_val "1") fa); fb]).
  split; [reflexivity|]. split; [repeat constructor|]. split; [reflexivity|]. split; [reflexivity|].
  split; [nodup|]. split.
  - intros f [<-|[]]. eexists. vm_compute. reflexivity.
  - vm_compute. intros (_ & _ & H). specialize (H eq_refl "a"). cbn in H. intuition discriminate.
Qed.

(** ** C30: off *)
Theorem C30_off_disables : forall c f k l m, off_argument f k = true ->
  field_methods c f = GOk l -> In m l -> m_kind m <> k.
Proof. exact off_not_emitted. Qed.
Theorem C30_off_lazy : forall c f, off_argument f KLazy = true -> is_lazy c f = false.
Proof. exact off_not_lazy. Qed.
(** Full statement: builder(off) removes the setter.  Missing: a name overrides it. *)
Theorem C30_off_builder_partial : forall c f, off_argument f KBuilder = true ->
  forced_builder f = false -> field_builder (cfg_of c f) = None.
Proof. exact off_no_setter. Qed.
(** [default(off, v)] is no default. *)
Theorem C30_default_off_value : forall k v str d f, default_from_list [(k, false); (v, str)] = Some d ->
  f_default f = Some d -> default_value f = None /\ f_has_default_value f = false.
Proof.
  intros k v str d f H Hf. unfold default_from_list in H. destruct (_ && _); [|discriminate].
  injection H as <-. unfold default_value, f_has_default_value, defarg_is_true. rewrite Hf. auto.
Qed.
Example C30_case :
  let s := put_s_accessor get_on (put_s_setter set_on (put_s_lazy h_on (put_s_builder bld_on bare_sargs))) in
  let f := put_f_accessor get_off (put_f_lazy h_no (put_f_builder bld_off fa)) in
  let c := ctx_of s [f] in
  off_argument f KAccessor = true /\ off_argument f KLazy = true /\ off_argument f KBuilder = true /\
  forced_builder f = false /\
  kinds (field_methods c fa) = [KAccessor; KSetter] /\ kinds (field_methods c f) = [KSetter] /\
  (is_lazy c fa = true /\ is_lazy c f = false) /\
  map fst (builder_setters (ctx_of s [f; fb])) = ["b"] /\
  default_from_list [("off", false); ("1", false)] = Some (mk_defarg true (Some "1") false).
Proof. vm_compute. auto 12. Qed.
(** [builder(off, "with_a")] still emits the setter. *)
Theorem C30_builder_off_named_refuted : exists c f m, no_errors c f /\
  off_argument f KBuilder = true /\ field_builder (cfg_of c f) = Some m.
Proof.
  exists (ctx_of (put_s_builder bld_on bare_sargs) []),
    (put_f_builder (Some (bld_with (mk_helper true (Some (mk_strarg false (Some "with_a"))) None None None))) fa).
  eexists. split; [split; reflexivity|]. split; vm_compute; reflexivity.
Qed.
(** [default(off)] gives the field the default value [off]. *)
Theorem C30_default_off_refuted : exists d, default_from_list [("off", false)] = Some d /\
  forall f, f_default f = Some d ->
    f_has_default_value f = true /\ default_value f = Some ("off", false).
Proof.
  eexists. split; [reflexivity|]. intros f H. unfold default_value, f_has_default_value.
  rewrite H. auto.
Qed.
(** [get, copy(off)]: a getter by value is emitted, where [get] gives a reference. *)
Theorem C30_copy_off_refuted : exists c f l m, no_errors c f /\ f_copy f = Some false /\
  field_methods c f = GOk l /\ In m l /\ m_kind m = KAccessor /\ hands_out_value (m_ret m) = true.
Proof.
  exists (ctx_of plain_s []), (put_f_accessor get_on (put_f_copy (Some false) fa)).
  eexists. eexists. split; [split; reflexivity|]. split; [reflexivity|].
  split; [vm_compute; reflexivity|]. split; [left; reflexivity|]. split; reflexivity.
Qed.
(** [get(clone)] at the struct, [clone(off)] at the field: still a clone. *)
Theorem C30_clone_off_refuted : exists c f l m, no_errors c f /\ f_clone f = Some false /\
  field_methods c f = GOk l /\ In m l /\ m_kind m = KAccessor /\ hands_out_value (m_ret m) = true.
Proof.
  exists (ctx_of (put_s_accessor get_clone bare_sargs) []), (put_f_clone (Some false) fa).
  eexists. eexists. split; [split; reflexivity|]. split; [reflexivity|].
  split; [vm_compute; reflexivity|]. split; [left; reflexivity|]. split; reflexivity.
Qed.

(** ** C31, C32, C37: the emitted declarations *)

(** Full statement: a getter hands out the value exactly when copy or clone is in
    force, in both generators.  Missing: [copy(off)], [clone(off)], see above. *)
Theorem C31_emitted_flavour_partial : forall c f l m, field_methods c f = GOk l -> In m l ->
  m_kind m = KAccessor ->
  (accessor_mode c f = AMClone -> is_clone c f = true) ->
  (is_sync c f = false -> accessor_mode c f = AMAsRef -> is_lazy c f = false) ->
  hands_out_value (m_ret m) = is_clone c f || is_copy c f.
Proof. exact emitted_flavour. Qed.
(** A getter asks for one clone when clone is in force and for none otherwise: a copying
    getter never runs the Clone of the type. *)
Theorem C31_clones_partial : forall c f l m, field_methods c f = GOk l -> In m l ->
  m_kind m = KAccessor ->
  (is_sync c f = false -> accessor_mode c f = AMClone -> is_clone c f = true) ->
  clone_calls (m_body m) = if is_clone c f then 1 else 0.
Proof. exact emitted_clones. Qed.
Example C31_clones_case :
  let calls s f := match field_methods (ctx_of s []) f with GOk l => map (fun m => clone_calls (m_body m)) l | _ => [] end in
  let opt := put_f_optional (Some true) in
  map (fun s => calls s (opt (put_f_accessor get_copy fa))) [plain_s; sync_s; async_s] = [[0]; [0]; [0]] /\
  map (fun s => calls s (opt (put_f_accessor get_clone fa))) [plain_s; sync_s; async_s] = [[1]; [1]; [1]] /\
  map (fun s => calls s (put_f_accessor get_clone (put_f_lazy h_on fa))) [plain_s; sync_s; async_s] = [[1]; [1]; [1]].
Proof. vm_compute. auto. Qed.
Example C31_emitted_flavour_case :
  let f := put_f_accessor get_clone (put_f_lazy h_on fa) in
  let rets c := match field_methods c f with GOk l => map m_ret l | _ => [] end in
  let rets' c := match field_methods c (put_f_lazy h_on (put_f_accessor get_on fa)) with
                 | GOk l => map m_ret l | _ => [] end in
  (forall s, accessor_mode (ctx_of s []) f = AMClone /\ is_clone (ctx_of s []) f = true) /\
  map (fun s => rets (ctx_of s [])) [plain_s; sync_s; async_s] = [[TT]; [TT]; [TT]] /\
  map (fun s => rets' (ctx_of s [])) [plain_s; sync_s; async_s]
  = [[TRef TT]; [TMapR TT]; [TLockR true TT]].
Proof. split; [|vm_compute; auto]. intros s. split; reflexivity. Qed.

(** Full statement: the visibility of every emitted method is the documented one.
    Missing: get_mut of a sync field. *)
Theorem C32_emitted_visibility_partial : forall c f l m, field_methods c f = GOk l -> In m l ->
  (is_sync c f = true -> m_kind m <> KAccessorMut) ->
  m_vis m = vis_spec (c_vis c) (c_args c) f (m_kind m).
Proof.
  intros c f l m H Hin Hk. destruct (field_decls c f l m H Hin) as (_ & -> & _ & _).
  cbn. rewrite vis_tok_spec. f_equal. unfold vis_kind. destruct (m_kind m); try reflexivity.
  destruct (is_sync c f); [destruct Hk|]; reflexivity.
Qed.
(** get_mut of a sync field has the visibility of get. *)
Theorem C32_sync_get_mut : forall c f l m, field_methods c f = GOk l -> In m l ->
  is_sync c f = true -> m_kind m = KAccessorMut ->
  m_vis m = vis_spec (c_vis c) (c_args c) f KAccessor.
Proof.
  intros c f l m H Hin Hs Hk. destruct (field_decls c f l m H Hin) as (_ & -> & _ & _).
  cbn. rewrite vis_tok_spec, Hk, Hs. reflexivity.
Qed.
Example C32_emitted_case :
  let f := put_f_accessor_mut (h_pub PMSuper) (put_f_accessor get_on (put_f_private (Some true) fa)) in
  let vis s := match field_methods (ctx_of s []) f with GOk l => map m_vis l | _ => [] end in
  vis plain_s = [""; "pub(super)"] /\ vis sync_s = [""; ""].
Proof. vm_compute. auto. Qed.
Theorem C32_sync_get_mut_refuted : exists c f l m, no_errors c f /\ field_methods c f = GOk l /\
  In m l /\ m_vis m <> vis_spec (c_vis c) (c_args c) f (m_kind m).
Proof.
  exists (ctx_of sync_s []), (put_f_accessor_mut (h_pub PMSuper) fa).
  eexists. eexists. split; [split; reflexivity|]. split; [vm_compute; reflexivity|].
  split; [left; reflexivity|]. vm_compute. discriminate.
Qed.
(** The setter of the builder is public whatever its arguments. *)
Theorem C32_builder_setter_refuted :
  (forall c f m, field_builder (cfg_of c f) = Some m -> m_vis m = "pub") /\
  exists c f m, no_errors c f /\ field_builder (cfg_of c f) = Some m /\
    vis_spec (c_vis c) (c_args c) f KBuilder = "" /\ m_vis m = "pub".
Proof.
  split.
  - intros c f m H. unfold field_builder in H. destruct (_ || _); [|discriminate].
    injection H as <-. reflexivity.
  - exists (ctx_of bare_sargs []),
      (put_f_builder (Some (bld_with (mk_helper false None None None (Some true)))) fa).
    eexists. split; [split; reflexivity|]. split; [vm_compute; reflexivity|]. split; reflexivity.
Qed.

(** The emitted names are the composed ones, and differ with default naming. *)
Theorem C37_emitted_name : forall c f l m, field_methods c f = GOk l -> In m l ->
  m_name m = helper_name c f (m_kind m).
Proof. intros c f l m H Hin. apply (field_decls c f l m H Hin). Qed.
Theorem C37_emitted_distinct : forall c f l, field_methods c f = GOk l ->
  (forall k, given_name (field_arg f k) = None /\ given_name (struct_arg (c_args c) k) = None) ->
  NoDup (map m_name l).
Proof. exact emitted_names. Qed.
Example C37_emitted_case :
  let f := put_f_lazy h_on (put_f_clearer h_on (put_f_accessor_mut h_on (put_f_setter set_on
             (put_f_writer h_on (put_f_predicate h_on fa))))) in
  let c := ctx_of sync_s [f] in
  (forall k, given_name (field_arg f k) = None /\ given_name (struct_arg (c_args c) k) = None) /\
  match field_methods c f with GOk l => map m_name l | _ => [] end
  = ["a"; "a_mut"; "write_a"; "set_a"; "clear_a"; "has_a"].
Proof. split; [intros []; split; reflexivity|vm_compute; reflexivity]. Qed.

(** ** C41: serde selection *)
Theorem C41_serialised : forall c f, In f (serialized c) <->
  In f (all_fields c) /\ struct_serde (c_args c) = true /\ field_serializes f = true.
Proof.
  intros c f. unfold serialized. rewrite filter_In, serialized_field, andb_true_iff. tauto.
Qed.
Theorem C41_deserialised : forall c f,
  is_serde c f && needs_deserialize c f = struct_serde (c_args c) && field_deserializes f.
Proof. exact deserialized_field. Qed.
Theorem C41_either : forall c f,
  is_serde c f = struct_serde (c_args c) && (field_serializes f || field_deserializes f).
Proof. exact is_serde_either. Qed.
(** The skip attributes in the shadow agree with the selection. *)
Theorem C41_skip_attributes : forall c f, struct_serde (c_args c) = true ->
  shadow_skip c f = (negb (field_serializes f), negb (field_deserializes f)).
Proof. exact shadow_skip_agrees. Qed.
(** The conversions exist exactly for the directions of the struct. *)
Theorem C41_into_emitted : forall c, into_shadow_emitted c
  = struct_serde (c_args c) &&
    match s_serde (c_args c) with
    | Some w => direction (se_serialize w) (se_deserialize w) | None => false end.
Proof. exact serialize_emitted. Qed.
Theorem C41_from_emitted : forall c, from_shadow_emitted c
  = struct_serde (c_args c) &&
    match s_serde (c_args c) with
    | Some w => direction (se_deserialize w) (se_serialize w) | None => false end.
Proof. exact deserialize_emitted. Qed.
Example C41_case :
  let c := ctx_of serde_s [fa; put_f_serde serde_off fb; put_f_serde deser_only (bare_field "c" "C");
                           put_f_skip true (bare_field "d" "D")] in
  struct_serde (c_args c) = true /\
  map f_ident (serialized c) = ["a"] /\ map fst (shadow_fields c) = ["a"; "c"] /\
  lit_idents (from_shadow_literal c) = ["a"; "c"] /\
  map (shadow_skip c) (c_input_fields c) = [(false, false); (true, true); (true, false); (true, true)] /\
  into_shadow_emitted (ctx_of (put_s_serde deser_only bare_sargs) [fa]) = false /\
  from_shadow_emitted (ctx_of (put_s_serde deser_only bare_sargs) [fa]) = true.
Proof. vm_compute. auto 10. Qed.
Print Assumptions C38_generated.
Print Assumptions C38_emitted_iff.
Print Assumptions C38_emitted_once.
Print Assumptions C38_plain_methods.
Print Assumptions C38_sync_methods.
Print Assumptions C38_ordinary_plain_partial.
Print Assumptions C38_ordinary_sync_partial.
Print Assumptions C38_builder_setter.
Print Assumptions C38_lazy_as_ref_refuted.
Print Assumptions C38_inner_mut_as_ref_refuted.
Print Assumptions C38_lazy_inner_mut_clearer_refuted.
Print Assumptions C38_copy_off_inner_mut_refuted.
Print Assumptions C38_async_lock_clone_refuted.
Print Assumptions C38_async_lock_get_mut_refuted.
Print Assumptions C38_fallible_not_lazy_refuted.
Print Assumptions C38_reader_lock_off_refuted.
Print Assumptions C38_clearer_optional_off_refuted.
Print Assumptions C38_plain_clearer_optional_off_refuted.
Print Assumptions C38_lazy_optional_clone_refuted.
Print Assumptions C38_default_value.
Print Assumptions C38_from_shadow_value.
Print Assumptions C38_build_value_plain.
Print Assumptions C38_build_value_sync.
Print Assumptions C38_into_shadow_value.
Print Assumptions C38_build_self_refuted.
Print Assumptions C38_bare_default_panics.
Print Assumptions C38_bare_default_refuted.
Print Assumptions C38_into_shadow_refuted.
Print Assumptions C38_default_literal.
Print Assumptions C38_from_shadow_literal.
Print Assumptions C38_into_shadow_literal.
Print Assumptions C38_builder_new.
Print Assumptions C38_from_shadow_literal_refuted.
Print Assumptions C38_into_shadow_literal_refuted.
Print Assumptions C38_builder_new_refuted.
Print Assumptions C29_no_methods.
Print Assumptions C29_not_in_builder.
Print Assumptions C29_no_setter.
Print Assumptions C29_not_serialised.
Print Assumptions C29_type_iff.
Print Assumptions C29_default_iff.
Print Assumptions C29_default_respected.
Print Assumptions C29_build_iff.
Print Assumptions C29_type_refuted.
Print Assumptions C29_default_refuted.
Print Assumptions C29_build_refuted.
Print Assumptions C30_off_disables.
Print Assumptions C30_off_lazy.
Print Assumptions C30_off_builder_partial.
Print Assumptions C30_default_off_value.
Print Assumptions C30_builder_off_named_refuted.
Print Assumptions C30_default_off_refuted.
Print Assumptions C30_copy_off_refuted.
Print Assumptions C30_clone_off_refuted.
Print Assumptions C31_emitted_flavour_partial.
Print Assumptions C31_clones_partial.
Print Assumptions C32_emitted_visibility_partial.
Print Assumptions C32_sync_get_mut.
Print Assumptions C32_sync_get_mut_refuted.
Print Assumptions C32_builder_setter_refuted.
Print Assumptions C37_emitted_name.
Print Assumptions C37_emitted_distinct.
Print Assumptions C41_serialised.
Print Assumptions C41_deserialised.
Print Assumptions C41_either.
Print Assumptions C41_skip_attributes.
Print Assumptions C41_into_emitted.
Print Assumptions C41_from_emitted.
