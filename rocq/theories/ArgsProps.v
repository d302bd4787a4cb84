(** Properties of argument resolution: C28, C31-C37, C46 (the parts that concern
    arguments; what the emitted code does with them is in CodegenProps.v). *)
From Coq Require Import List Bool String Arith.
From Verif Require Import ArgsModel CtxModel ArgsSpec ArgsFixtures ArgsProofs.
Import ListNotations.
Open Scope string_scope.

Definition ctx_of (s : sargs) (fs : list field) : sctx := mk_sctx "Foo" "pub" s fs.
Definition fa : field := bare_field "a" "A".
Definition fb : field := bare_field "b" "B".

(** ** C28: field beats struct beats implied *)

Theorem C28_precedence : forall c f, f_skip f = false ->
  precedence (c_args c) f (effective c f).
Proof. exact precedence_holds. Qed.

(** The promise leaves no freedom: whoever satisfies it computes the same values. *)
Theorem C28_precedence_determines : forall s f e1 e2,
  precedence s f e1 -> precedence s f e2 -> forall ft, e1 ft = e2 ft.
Proof. exact precedence_unique. Qed.

(** What the field says itself cannot be changed at struct level. *)
Theorem C28_struct_irrelevant : forall c c' f ft b, f_skip f = false ->
  field_says f ft = Some b -> effective c f ft = effective c' f ft.
Proof.
  intros c c' f ft b Hs Hf.
  destruct (precedence_holds c f Hs ft) as [H _], (precedence_holds c' f Hs ft) as [H' _].
  rewrite (H b Hf), (H' b Hf). reflexivity.
Qed.

(** [#[fxstruct(lazy, builder(opt_in), into)]], [#[fieldx(lazy(off), clearer)]]: not
    lazy, hence optional and locked, accessor implied by the clearer, no builder
    method, into inherited. *)
Example C28_case :
  let c := ctx_of (put_s_lazy h_on (put_s_builder bld_opt_in (put_s_into (Some true) bare_sargs))) [] in
  let f := put_f_lazy h_no (put_f_clearer h_on fa) in
  f_skip f = false /\
  map (effective c f) [FtLazy; FtOptional; FtLock; FtGet; FtBuilder; FtSetterInto; FtPredicate]
  = [false; true; true; true; false; true; false] /\
  field_says f FtLazy = Some false /\
  struct_says (c_args c) FtLazy = Some true /\
  map (effective c fa) [FtLazy; FtOptional] = [true; false].
Proof. vm_compute. repeat split. Qed.

(** ** C31 (arguments): copy and clone are never both selected *)
Theorem C31_copy_clone_exclusive : forall c f, is_copy c f && is_clone c f = false.
Proof. exact never_both. Qed.
Example C31_copy_clone_exclusive_case :
  let c := ctx_of (put_s_accessor get_clone bare_sargs) [] in
  is_clone c fa = true /\ is_copy c fa = false /\
  let f := put_f_copy (Some true) fa in is_clone c f = false /\ is_copy c f = true.
Proof. vm_compute. auto. Qed.

(** Full statement: the flavour used by the plain generator (accessor_mode) is the one
    used by the sync generator (is_copy, is_clone).  Missing: [copy(off)] and
    [clone(off)], see the refutations. *)
Theorem C31_same_flavour_partial : forall c f,
  f_copy f <> Some false -> f_clone f <> Some false ->
  s_copy (c_args c) <> Some false -> s_clone (c_args c) <> Some false ->
  field_errors f = [] -> sargs_errors (c_args c) = [] ->
  (accessor_mode c f = AMCopy <-> is_copy c f = true) /\
  (accessor_mode c f = AMClone <-> is_clone c f = true).
Proof. exact same_flavour. Qed.
Example C31_same_flavour_case :
  let c := ctx_of (put_s_accessor get_clone (put_s_copy (Some true) bare_sargs)) [] in
  let f := put_f_clone (Some true) fa in
  f_copy f <> Some false /\ f_clone f <> Some false /\
  s_copy (c_args c) <> Some false /\ s_clone (c_args c) <> Some false /\
  field_errors f = [] /\ sargs_errors (c_args c) = [] /\
  accessor_mode c f = AMClone /\
  accessor_mode (ctx_of (put_s_copy (Some true) bare_sargs) []) fa = AMCopy /\
  accessor_mode c (put_f_accessor get_as_ref fa) = AMAsRef.
Proof. vm_compute. repeat split; discriminate. Qed.

(** [get, copy(off)]: the plain generator clones, the sync one does not. *)
Theorem C31_copy_off_refuted :
  exists c f, f_copy f = Some false /\ field_errors f = [] /\ sargs_errors (c_args c) = [] /\
    accessor_mode c f = AMClone /\ is_clone c f = false.
Proof.
  exists (ctx_of bare_sargs []), (put_f_accessor get_on (put_f_copy (Some false) fa)).
  vm_compute. auto 8.
Qed.
(** [get(clone)] at the struct, [clone(off)] at the field: the plain generator clones. *)
Theorem C31_clone_off_refuted :
  exists c f, f_clone f = Some false /\ field_errors f = [] /\ sargs_errors (c_args c) = [] /\
    accessor_mode c f = AMClone /\ is_clone c f = false.
Proof.
  exists (ctx_of (put_s_accessor get_clone bare_sargs) []), (put_f_clone (Some false) fa).
  vm_compute. auto 8.
Qed.

(** ** C32 (arguments): visibility precedence *)
Theorem C32_visibility_precedence : forall c f k,
  vis_tok c f k = vis_spec (c_vis c) (c_args c) f k.
Proof. exact vis_tok_spec. Qed.
(** [#[fxstruct(public(crate), set(public(super)))]]: the setter of a silent field is
    pub(super), its getter pub(crate); [private] at the field hides both but not a
    getter with its own [public]. *)
Example C32_visibility_case :
  let s := put_s_public (Some PMCrate)
             (put_s_setter (Some (mk_setter (mk_helper false None None (Some PMSuper) None) None)) bare_sargs) in
  let c := ctx_of s [] in
  let p := put_f_private (Some true) fa in
  let g := put_f_accessor (Some (mk_accessor (mk_helper false None None (Some PMAll) None) false false false)) p in
  map (fun x => (vis_tok c x KSetter, vis_tok c x KAccessor)) [fa; p; g]
  = [("pub(super)", "pub(crate)"); ("", ""); ("", "pub")] /\
  vis_tok (ctx_of bare_sargs []) fa KWriter = "pub".
Proof. vm_compute. auto. Qed.

(** ** C33: mutually exclusive arguments *)

(** An error is reported for a group exactly when two arguments of it that do not go
    together are both enabled. *)
Theorem C33_field_conflicts : forall f g,
  In g (map fst (field_errors f)) <->
  exists ps, In (g, ps) field_conflicts /\ clash (enabled_f f) ps.
Proof. exact field_errors_spec. Qed.
Theorem C33_struct_conflicts : forall s g,
  In g (map fst (sargs_errors s)) <->
  exists ps, In (g, ps) struct_conflicts /\ clash (enabled_s s) ps.
Proof. exact sargs_errors_spec. Qed.

(** The message of a group lists exactly its enabled members. *)
Theorem C33_field_error_names : forall f g ns, In (g, ns) (field_errors f) ->
  exists ms, In (g, ms) field_members /\
    ns = map snd (filter (fun m => enabled_f f (fst m)) ms).
Proof. exact field_error_names. Qed.
Theorem C33_struct_error_names : forall s g ns, In (g, ns) (sargs_errors s) ->
  exists ms, In (g, ms) struct_members /\
    ns = map snd (filter (fun m => enabled_s s (fst m)) ms).
Proof. exact struct_error_names. Qed.

(** At most one error per group, and errors depend on enabled arguments only: giving
    an argument as [off] is the same as not giving it. *)
Theorem C33_field_errors_once : forall f, NoDup (map fst (field_errors f)).
Proof. exact field_errors_nodup. Qed.
Theorem C33_struct_errors_once : forall s, NoDup (map fst (sargs_errors s)).
Proof. exact sargs_errors_nodup. Qed.
Theorem C33_field_off_neutral : forall f f',
  (forall n, enabled_f f n = enabled_f f' n) -> field_errors f = field_errors f'.
Proof. exact field_errors_enabled_only. Qed.
Theorem C33_struct_off_neutral : forall s s',
  (forall n, enabled_s s n = enabled_s s' n) -> sargs_errors s = sargs_errors s'.
Proof. exact sargs_errors_enabled_only. Qed.

(** [lazy, inner_mut, sync, clone, copy(off)]: two groups are violated, [copy(off)]
    takes no part. *)
Example C33_case :
  let f := put_f_lazy h_on (put_f_inner_mut (Some true) (put_f_mode_sync (Some true)
             (put_f_clone (Some true) (put_f_copy (Some false) fa)))) in
  field_errors f = [("field mode", ["lazy"; "inner_mut"]);
                    ("concurrency mode", ["sync"; "inner_mut"])] /\
  sargs_errors (put_s_serde serde_on (put_s_rc h_on bare_sargs))
    = [("serde/ref.counting", ["serde"; "rc"])] /\
  sargs_errors (put_s_mode_sync (Some true) (put_s_mode_async (Some true) bare_sargs)) = [].
Proof. vm_compute. auto. Qed.

(** Inside a helper argument the check looks at presence, not at the value: here
    [get(public, private(off))] is rejected although [private] is off. *)
Theorem C33_helper_off_neutral_refuted :
  exists h, h_private h = Some false /\ helper_exclusives_ok h = false.
Proof. exists (mk_helper false None None (Some PMAll) (Some false)). vm_compute. auto. Qed.

(** ** C34: concurrency mode *)

(** A field with nothing to say has the struct's mode, however that is spelled. *)
Theorem C34_struct_mode : forall c f m, no_mode_off_s (c_args c) -> sargs_errors (c_args c) = [] ->
  struct_asks_mode (c_args c) m -> no_mode_opinion f -> field_mode c f = m.
Proof. exact struct_mode_field. Qed.
Example C34_struct_mode_case :
  no_mode_off_s (put_s_mode (Some MAsync) bare_sargs) /\
  sargs_errors (put_s_mode (Some MAsync) bare_sargs) = [] /\
  struct_asks_mode (put_s_mode (Some MAsync) bare_sargs) MAsync /\
  no_mode_opinion (put_f_lazy h_on fa) /\
  field_mode (ctx_of (put_s_mode (Some MAsync) bare_sargs) []) (put_f_lazy h_on fa) = MAsync /\
  field_mode (ctx_of (put_s_mode_async (Some true) bare_sargs) []) (put_f_lazy h_on fa) = MAsync.
Proof.
  unfold no_mode_off_s, no_mode_opinion, struct_asks_mode.
  repeat split; try discriminate; auto.
Qed.

(** Full statement: a field asking for mode [m] gets mode [m].
    Missing: [mode(async)] at the field, and [sync] at a field of an async struct,
    see the two refutations below. *)
Theorem C34_field_mode_partial : forall c f m, no_mode_off_f f -> field_errors f = [] ->
  field_asks_mode f m ->
  f_mode f <> Some MAsync ->
  (f_mode_sync f = Some true -> s_is_async (c_args c) <> Some true) ->
  field_mode c f = m.
Proof. exact field_mode_own. Qed.
Example C34_field_mode_case :
  let c := ctx_of (put_s_mode_async (Some true) bare_sargs) [] in
  let f := put_f_mode (Some MPlain) fa in
  no_mode_off_f f /\ field_errors f = [] /\ field_asks_mode f MPlain /\
  f_mode f <> Some MAsync /\ (f_mode_sync f = Some true -> s_is_async (c_args c) <> Some true) /\
  field_mode c f = MPlain /\
  field_mode c (put_f_mode (Some MSync) fa) = MSync /\
  field_mode (ctx_of bare_sargs []) (put_f_mode_async (Some true) fa) = MAsync.
Proof. unfold no_mode_off_f. repeat split; simpl; try discriminate; auto. Qed.

(** [mode(async)] at a field generates plain code, whereas [async] generates async
    code: fields.rs:217-226 consults only FXSyncMode::is_sync. *)
Theorem C34_field_mode_async_refuted :
  exists f, no_mode_off_f f /\ field_errors f = [] /\ field_asks_mode f MAsync /\
    forall c, field_mode c f = MPlain.
Proof.
  exists (put_f_mode (Some MAsync) fa). unfold no_mode_off_f.
  repeat split; simpl; try discriminate; auto.
Qed.

(** [sync] at a field of an async struct generates async code; [mode(sync)] in the
    same place generates sync code. *)
Theorem C34_field_sync_in_async_refuted :
  exists c f f', no_mode_off_f f /\ field_errors f = [] /\ sargs_errors (c_args c) = [] /\
    field_asks_mode f MSync /\ field_mode c f = MAsync /\
    field_asks_mode f' MSync /\ field_mode c f' = MSync.
Proof.
  exists (ctx_of (put_s_mode_async (Some true) bare_sargs) []),
         (put_f_mode_sync (Some true) fa), (put_f_mode (Some MSync) fa).
  unfold no_mode_off_f. repeat split; simpl; try discriminate; auto.
Qed.

(** [inner_mut(off)] at a field of a plain struct turns the field into a sync one
    (fields.rs:231). *)
Theorem C34_inner_mut_off_refuted :
  exists c f, c_args c = bare_sargs /\ f_inner_mut f = Some false /\
    field_mode c (put_f_inner_mut None f) = MPlain /\ field_mode c f = MSync.
Proof.
  exists (ctx_of bare_sargs []), (put_f_inner_mut (Some false) fa). vm_compute. auto.
Qed.

(** ** C35: a struct with a sync field is rather sync *)

(** Full statement: without a struct-level mode, the struct is sync exactly when some
    field asks for sync.  Missing: one direction fails when an earlier field asks for
    something else. *)
Theorem C35_rather_sync_partial : forall c, s_is_sync (c_args c) = None ->
  (forall f, In f (c_input_fields c) -> not_against_sync f) ->
  (is_rather_sync c = true <-> exists f, In f (c_input_fields c) /\ field_asks_sync f).
Proof. exact rather_sync_asks. Qed.
(** A struct without a mode never becomes sync unasked, except by [inner_mut(off)]. *)
Theorem C35_rather_sync_only_if : forall c, s_is_sync (c_args c) = None ->
  is_rather_sync c = true ->
  exists f, In f (c_input_fields c) /\ (field_asks_sync f \/ f_inner_mut f = Some false).
Proof. exact rather_sync_only. Qed.
Example C35_rather_sync_case :
  let c := ctx_of bare_sargs [fa; put_f_lock (Some true) fb] in
  s_is_sync (c_args c) = None /\
  (forall f, In f (c_input_fields c) -> not_against_sync f) /\
  is_rather_sync c = true /\ is_rather_sync (ctx_of bare_sargs [fa; fb]) = false.
Proof.
  unfold not_against_sync. split; [reflexivity|]. split; [|split; reflexivity].
  intros f [<-|[<-|[]]]; vm_compute; repeat split; discriminate.
Qed.

(** Two fields, one plain by [inner_mut], one [sync]: the outcome depends on which
    comes first. *)
Theorem C35_order_independence_refuted :
  exists f g, field_errors f = [] /\ field_errors g = [] /\ field_asks_sync g /\
    is_rather_sync (ctx_of bare_sargs [f; g]) = false /\
    is_rather_sync (ctx_of bare_sargs [g; f]) = true.
Proof.
  exists (put_f_inner_mut (Some true) fa), (put_f_mode_sync (Some true) fb).
  unfold field_asks_sync. simpl. repeat split; auto.
Qed.

(** ** C36: bare [#[fieldx]] *)

(** It switches laziness, clearer and predicate off, whatever the struct asks for. *)
Theorem C36_bare_fieldx_refuted : forall c f, f_lazy f = None ->
  is_lazy c (mark_implicitly f) = false /\
  needs_clearer c (mark_implicitly f) = false /\
  needs_predicate c (mark_implicitly f) = false.
Proof.
  intros c f H. unfold mark_implicitly. rewrite H.
  unfold is_lazy, needs_clearer, needs_predicate, f_is_lazy, unless_skip. simpl.
  destruct (f_skip f); auto.
Qed.
Example C36_bare_fieldx_case :
  let c := ctx_of (put_s_lazy h_on bare_sargs) [] in
  f_lazy fa = None /\ is_lazy c fa = true /\ is_lazy c (mark_implicitly fa) = false.
Proof. vm_compute. auto. Qed.

(** From<bool> for FXBaseHelper and back is negation, never the identity. *)
Theorem C36_bool_round_trip_refuted : forall b, bool_from_helper (helper_from_bool b) = negb b.
Proof. intros []; reflexivity. Qed.

(** What does hold: a bare [#[fieldx]] touches nothing when [lazy] is given. *)
Theorem C36_explicit_lazy_kept_partial : forall f h, f_lazy f = Some h -> mark_implicitly f = f.
Proof. intros f h H. unfold mark_implicitly. rewrite H. reflexivity. Qed.
Example C36_explicit_lazy_case :
  f_lazy (put_f_lazy h_on fa) = h_on /\ mark_implicitly (put_f_lazy h_on fa) <> mark_implicitly fa.
Proof. split; [reflexivity|discriminate]. Qed.

(** ** C37: method names *)

(** With default naming the methods of one field have different names. *)
Theorem C37_kinds_distinct : forall c f k k',
  In k struct_kinds -> In k' struct_kinds -> k <> k' ->
  given_name (field_arg f k) = None -> given_name (field_arg f k') = None ->
  given_name (struct_arg (c_args c) k) = None -> given_name (struct_arg (c_args c) k') = None ->
  helper_name c f k <> helper_name c f k'.
Proof. exact names_distinct_kinds. Qed.

(** For one kind of helper, differently named fields get different names, also under a
    struct-level prefix. *)
Theorem C37_fields_distinct : forall c f f' k,
  given_name (field_arg f k) = None -> given_name (field_arg f' k) = None ->
  helper_base_name f <> helper_base_name f' -> helper_name c f k <> helper_name c f' k.
Proof. exact names_distinct_fields. Qed.

(** An explicit name is taken verbatim. *)
Theorem C37_explicit_verbatim : forall c f k n,
  given_name (field_arg f k) = Some n -> n <> "" -> helper_name c f k = n.
Proof. exact helper_name_explicit. Qed.

(** Otherwise the name is the struct's prefix, or the default one, and the base name. *)
Theorem C37_composed : forall c f k, given_name (field_arg f k) = None ->
  helper_name c f k =
  unwrap_or (or_else (given_name (struct_arg (c_args c) k)) (default_prefix k)) ""
    ++ unwrap_or (f_base_name_of f) (f_ident f) ++ unwrap_or (default_suffix k) "".
Proof. exact helper_name_composed. Qed.

Example C37_case :
  let c := ctx_of (put_s_clearer (h_named "reset_") bare_sargs) [] in
  let f := put_f_base_name (Some (mk_strarg false (Some "data"))) (put_f_predicate (h_named "is_there") fa) in
  map (helper_name c f) struct_kinds
  = ["data"; "data_mut"; "reset_data"; "build_data"; "is_there"; "read_data"; "set_data"; "write_data"] /\
  map (helper_name c fb) struct_kinds
  = ["b"; "b_mut"; "reset_b"; "build_b"; "has_b"; "read_b"; "set_b"; "write_b"].
Proof. vm_compute. auto. Qed.

(** Across fields and kinds names may meet: [get_mut] of [a] and [get] of [a_mut]. *)
Theorem C37_cross_field_clash :
  exists c f g, f_ident f <> f_ident g /\
    needs_accessor_mut c f = true /\ needs_accessor c g = true /\
    helper_name c f KAccessorMut = helper_name c g KAccessor.
Proof.
  exists (ctx_of bare_sargs []), (put_f_accessor_mut h_on fa),
         (put_f_accessor get_on (bare_field "a_mut" "T")).
  vm_compute. repeat split; discriminate.
Qed.

(** ** C46: when Default is generated *)

(** Full statement: Default is implemented exactly when README.md says so, where a
    field may be lazy by its own or by the struct's argument.
    Missing: the struct-level [lazy], see the refutation. *)
Theorem C46_needs_default_partial : forall c,
  said (s_lazy (c_args c)) <> Some true ->
  (needs_default c = true <->
   (s_default (c_args c) = Some true \/
    (s_default (c_args c) = None /\
     (s_no_new (c_args c) <> Some true
      \/ (exists f, In f (c_input_fields c) /\ gives_default f)
      \/ (is_rather_sync c = true /\ exists f, In f (c_input_fields c) /\ is_lazy c f = true))))).
Proof. exact needs_default_spec. Qed.
Example C46_needs_default_case :
  let s := put_s_mode_sync (Some true) (put_s_no_new (Some true) bare_sargs) in
  said (s_lazy s) <> Some true /\
  needs_default (ctx_of s [put_f_lazy h_on fa]) = true /\
  needs_default (ctx_of s [fa]) = false /\
  needs_default (ctx_of s [put_f_default (def_val "1") fa]) = true /\
  needs_default (ctx_of (put_s_default (Some false) s) [put_f_lazy h_on fa]) = false.
Proof. vm_compute. repeat split. discriminate. Qed.

Theorem C46_struct_lazy_refuted :
  exists c f, s_default (c_args c) = None /\ is_rather_sync c = true /\
    In f (c_input_fields c) /\ is_lazy c f = true /\ needs_default c = false.
Proof.
  exists (ctx_of (put_s_mode_sync (Some true) (put_s_no_new (Some true)
            (put_s_lazy h_on bare_sargs))) [fa]), fa.
  vm_compute. auto 8.
Qed.

Print Assumptions C28_precedence.
Print Assumptions C28_precedence_determines.
Print Assumptions C28_struct_irrelevant.
Print Assumptions C31_copy_clone_exclusive.
Print Assumptions C31_same_flavour_partial.
Print Assumptions C31_copy_off_refuted.
Print Assumptions C31_clone_off_refuted.
Print Assumptions C33_field_error_names.
Print Assumptions C33_struct_error_names.
Print Assumptions C32_visibility_precedence.
Print Assumptions C33_field_conflicts.
Print Assumptions C33_struct_conflicts.
Print Assumptions C33_field_errors_once.
Print Assumptions C33_struct_errors_once.
Print Assumptions C33_field_off_neutral.
Print Assumptions C33_struct_off_neutral.
Print Assumptions C33_helper_off_neutral_refuted.
Print Assumptions C34_struct_mode.
Print Assumptions C34_field_mode_partial.
Print Assumptions C34_field_mode_async_refuted.
Print Assumptions C34_field_sync_in_async_refuted.
Print Assumptions C34_inner_mut_off_refuted.
Print Assumptions C35_rather_sync_partial.
Print Assumptions C35_rather_sync_only_if.
Print Assumptions C35_order_independence_refuted.
Print Assumptions C36_bare_fieldx_refuted.
Print Assumptions C36_bool_round_trip_refuted.
Print Assumptions C36_explicit_lazy_kept_partial.
Print Assumptions C37_kinds_distinct.
Print Assumptions C37_fields_distinct.
Print Assumptions C37_explicit_verbatim.
Print Assumptions C37_composed.
Print Assumptions C37_cross_field_clash.
Print Assumptions C46_needs_default_partial.
Print Assumptions C46_struct_lazy_refuted.
