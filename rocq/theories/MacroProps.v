(** The macro as a whole: it runs to its end (C72), the names it makes (C73), what it
    complains about and what it leaves out (C74). *)
From Coq Require Import List Bool String Ascii Arith.
From Verif Require Import ArgsModel CtxModel RustAst ArgsFixtures ArgsProps CommonGen StructGen
  NameModel MacroModel MacroSpec NameProofs MacroProofs.
Import ListNotations.
Open Scope string_scope.

(** ** C72: the macro does not panic *)
(** Full statement: no struct makes the macro panic.  Missing: names that are no
    identifiers, raw identifiers where serde gets a function, the word [default] alone
    on a sync field that is lazy or optional; refuted below, each by itself. *)
Theorem C72_no_panic_partial : forall path assignment c, ok_input c ->
  exists es, expand path assignment c = GOk es.
Proof. exact no_panic. Qed.
Print Assumptions C72_no_panic_partial.

Definition yes (_ : string) : bool := true.
Definition no (_ : string) : bool := false.
(** [#[fxstruct(sync, rc("me"), builder, serde(default(Foo::new())))] struct r#type], with
    an async lazy field [r#fn] named by rename, a fallible sync one without error type and
    a plain one whose getter has a raw name. *)
Definition serde_default_code (v : string) : option serde :=
  Some (mk_serde false None None None None None None (Some (mk_defarg false (Some v) false)) None).
Definition rich : sctx :=
  mk_sctx "r#type" "pub"
    (put_s_mode_sync (Some true) (put_s_rc (h_named "me") (put_s_builder bld_on
      (put_s_serde (serde_default_code "Foo::new()") bare_sargs))))
    [put_f_mode_async (Some true) (put_f_lazy h_on (put_f_base_name (Some (mk_strarg false (Some "func")))
       (bare_field "r#fn" "u8")));
     put_f_lazy h_on (put_f_fallible (Some (mk_fallible false None)) (bare_field "b" "u8"));
     put_f_mode_sync (Some false) (put_f_accessor (Some (mk_accessor (mk_helper false (Some (mk_strarg false (Some "r#try"))) None None None) false false false))
       (bare_field "c" "u8"))].

Ltac known_word := first [apply ident_text_word; vm_compute; reflexivity
  | right; eexists; split; [reflexivity|]; split; [apply ident_text_word; vm_compute; reflexivity
    |simpl; intuition discriminate]
  | left; apply ident_text_word; vm_compute; reflexivity].
Ltac given := match goal with
  | H : given_string _ _ |- _ => destruct H as (? & H & _ & ?); simpl in *; try discriminate H; injection H as <-
  end; simpl in *; try discriminate.
Lemma rich_ok : ok_input rich.
Proof.
  split.
  - split.
    + known_word.
    + intros k h n G S. destruct k; try discriminate; injection G as <-; given.
    + intros h n G S. injection G as <-. given. match goal with H : Some _ = Some _ |- _ => injection H as <- end. known_word.
    + intros w n G S. injection G as <-. given.
  - intros f [<-|[<-|[<-|[]]]]; (split; [known_word| |]).
    + intros n S. given. match goal with H : Some _ = Some _ |- _ => injection H as <- end. known_word.
    + intros k h n G S. destruct k; try discriminate; injection G as <-; given.
    + intros n S. given.
    + intros k h n G S. destruct k; try discriminate; injection G as <-; given.
    + intros n S. given.
    + intros k h n G S. destruct k; try discriminate; injection G as <-; given.
      match goal with H : Some _ = Some _ |- _ => injection H as <- end. right. known_word.
  - split.
    + intros f I (w & d & v & W & _). exfalso. destruct I as [<-|[<-|[<-|[]]]]; discriminate.
    + intros w n G _ S. injection G as <-. given.
  - intros f d I D. exfalso. destruct I as [<-|[<-|[<-|[]]]]; discriminate.
Qed.
Example C72_no_panic_case :
  ok_input rich /\ expand yes no rich = GOk [("b", unknown_type); ("b", unknown_type)]
  /\ helper_ident rich (put_f_lazy h_on (bare_field "r#fn" "u8")) KLazy = GOk "build_fn".
Proof. split; [exact rich_ok|]. split; vm_compute; reflexivity. Qed.

Definition panics (c : sctx) : Prop := exists m, expand yes no c = GPanic m.
Definition renamed (n : string) (f : field) : field := put_f_base_name (Some (mk_strarg false (Some n))) f.
Definition getter_named (n : string) : option accessor :=
  Some (mk_accessor (mk_helper false (Some (mk_strarg false (Some n))) None None None) false false false).
(** [rename("")] and [rename("r#x")] on a field with a getter. *)
Theorem C72_rename_refuted :
  panics (ctx_of bare_sargs [renamed "" (put_f_accessor get_on fa)])
  /\ panics (ctx_of bare_sargs [renamed "r#x" (put_f_accessor get_on fa)]).
Proof. split; eexists; vm_compute; reflexivity. Qed.
Print Assumptions C72_rename_refuted.
(** [get("1x")] at a field; a prefix [1] at the struct. *)
Theorem C72_helper_name_refuted :
  panics (ctx_of bare_sargs [put_f_accessor (getter_named "1x") fa])
  /\ panics (ctx_of (put_s_accessor (getter_named "1") bare_sargs) [fa]).
Proof. split; eexists; vm_compute; reflexivity. Qed.
Print Assumptions C72_helper_name_refuted.
(** [rc("")] and [serde(shadow_name(""))]. *)
Theorem C72_struct_name_refuted :
  panics (ctx_of (put_s_rc (h_named "") bare_sargs) [fa])
  /\ panics (ctx_of (put_s_serde (Some (mk_serde false None None None None None None None (Some (mk_strarg false (Some ""))))) bare_sargs) [fa]).
Proof. split; eexists; vm_compute; reflexivity. Qed.
Print Assumptions C72_struct_name_refuted.
(** A raw name and [serde(default(1))]: the text of the name, with its [r#], gets into
    the middle of a new one. *)
Theorem C72_raw_default_refuted :
  panics (ctx_of (put_s_serde serde_on bare_sargs) [put_f_serde (serde_default_code "1") (bare_field "r#type" "u8")])
  /\ panics (mk_sctx "r#type" "pub" (put_s_serde serde_on bare_sargs) [put_f_serde (serde_default_code "1") fa]).
Proof. split; eexists; vm_compute; reflexivity. Qed.
Print Assumptions C72_raw_default_refuted.
(** [#[fxstruct(sync, builder)]] and [#[fieldx(lazy, default)]]. *)
Theorem C72_bare_default_refuted :
  panics (ctx_of (put_s_mode_sync (Some true) (put_s_builder bld_on bare_sargs))
            [put_f_lazy h_on (put_f_default (Some (mk_defarg false None false)) fa)]).
Proof. eexists; vm_compute; reflexivity. Qed.
Print Assumptions C72_bare_default_refuted.

(** ** C73: the names the macro makes *)
(** Every helper gets a name, an identifier. *)
Theorem C73_identifier : forall c f k, struct_names_ok c -> field_names_ok f ->
  exists n, helper_ident c f k = GOk n /\ identifier n.
Proof. intros c f k Hs. exact (helper_ident_ok c Hs f k). Qed.
Print Assumptions C73_identifier.

(** Without a name of its own the helper gets the documented one, built on the name of
    the field without [r#]. *)
Theorem C73_documented : forall c f k s, field_names_ok f -> stem f s -> unnamed c f k ->
  helper_ident c f k = GOk (documented_name k s).
Proof. exact documented. Qed.
Print Assumptions C73_documented.
Example C73_documented_case :
  let f := bare_field "r#type" "u8" in
  stem f "type" /\ unnamed (ctx_of bare_sargs [f]) f KSetter
  /\ helper_ident (ctx_of bare_sargs [f]) f KSetter = GOk "set_type"
  /\ helper_ident (ctx_of bare_sargs [f]) (renamed "x" f) KAccessorMut = GOk "x_mut".
Proof.
  split; [|split; [split; intros h n; discriminate|split; reflexivity]].
  right. split; [intros n (a & X & _); discriminate|]. split; [known_word|right; reflexivity].
Qed.

(** Where all names are words the names are those used by the other files. *)
Theorem C73_same_names : forall c f k, struct_names_ok c -> field_names_ok f -> word (f_ident f) ->
  helper_ident c f k = GOk (helper_name c f k).
Proof. exact same_name. Qed.
Print Assumptions C73_same_names.
Example C73_same_names_case : word (f_ident fa) /\ helper_name (ctx_of bare_sargs [fa]) fa KClearer = "clear_a".
Proof. split; [known_word|reflexivity]. Qed.

(** Full statement: such a name can always be written in code.  Missing: getters and
    builder methods of a field called by a keyword, which lose the [r#]. *)
Theorem C73_nameable_partial : forall c f k s n, field_names_ok f -> stem f s -> unnamed c f k ->
  helper_ident c f k = GOk n ->
  (nameable n <-> (k <> KAccessor /\ k <> KBuilder \/ ~ In s rust_keywords)).
Proof.
  intros c f k s n H St U E. rewrite (documented c f k s H St U) in E. injection E as <-.
  apply documented_nameable, (stem_word f s H St).
Qed.
Print Assumptions C73_nameable_partial.
Theorem C73_nameable_refuted :
  let f := bare_field "r#type" "u8" in
  nameable (f_ident f) /\ helper_ident (ctx_of bare_sargs [f]) f KAccessor = GOk "type"
  /\ ~ nameable "type".
Proof.
  split; [split; [known_word|simpl; intuition discriminate]|]. split; [reflexivity|].
  intros [_ N]. apply N. simpl. tauto.
Qed.
Print Assumptions C73_nameable_refuted.

(** The builder, the shadow struct and the names around the reference count. *)
Theorem C73_struct_names : forall c, struct_names_ok c ->
  (exists b, builder_ident c = GOk b /\ nameable b)
  /\ ((forall w n, s_serde (c_args c) = Some w -> ~ given_string (se_shadow_name w) n) ->
      exists s, shadow_ident_of c = GOk s /\ nameable s)
  /\ (forall n, myself_name c = Some n ->
      myself_idents c = GOk (Some (n, n ++ "_downgrade")) /\ nameable (n ++ "_downgrade")
      /\ myself_field_ident c = GOk (Some ("__weak_" ++ n)) /\ nameable ("__weak_" ++ n)).
Proof.
  intros c H. split; [apply builder_nameable, H|]. split; [apply shadow_nameable, H|].
  intros n E. destruct (myself_ok c H n E) as [-> ->], (weak_nameable c n H E). auto.
Qed.
Print Assumptions C73_struct_names.
Example C73_struct_names_case :
  struct_names_ok rich /\ builder_ident rich = GOk "typeBuilder" /\ shadow_ident_of rich = GOk "__typeShadow"
  /\ myself_field_ident rich = GOk (Some "__weak_me").
Proof. split; [exact (ok_struct rich rich_ok)|]. repeat split; vm_compute; reflexivity. Qed.

(** ** C74: complaints *)
(** The complaints are those owed, about every field and not only the first. *)
Theorem C74_errors : forall path assignment c es, expand path assignment c = GOk es -> forall n m,
  In (n, m) es <->
  (exists f, In f (all_fields c) /\ bad_field c f /\ n = f_ident f /\ m = unknown_type)
  \/ (bad_serde_default path assignment c /\ n = "" /\ serde_message c m).
Proof.
  intros path assignment c es E n m. split; [apply errors_from, E|].
  intros [(f & I & B & -> & ->)|(B & -> & M)]; [apply (errors_field _ _ _ _ _ E I B)|].
  destruct (errors_serde _ _ _ _ E B) as (m' & I & (w' & d' & W' & D' & ->)).
  destruct M as (w & d & W & D & ->). rewrite W in W'. injection W' as <-. rewrite D in D'. injection D' as <-.
  exact I.
Qed.
Print Assumptions C74_errors.
(** No complaint exactly when there is nothing to complain about. *)
Theorem C74_accepted : forall path assignment c es, expand path assignment c = GOk es ->
  (es = [] <-> (forall f, In f (all_fields c) -> ~ bad_field c f) /\ ~ bad_serde_default path assignment c).
Proof.
  intros path assignment c es E. split.
  - intros ->. split; [intros f I B; destruct (errors_field _ _ _ _ _ E I B)|].
    intros B. destruct (errors_serde _ _ _ _ E B) as (m & [] & _).
  - intros [F S]. destruct es as [|[n m] es]; [reflexivity|].
    destruct (errors_from _ _ _ _ n m E (or_introl eq_refl)) as [(f & I & B & _)|(B & _)].
    + destruct (F f I B).
    + destruct (S B).
Qed.
Print Assumptions C74_accepted.
Example C74_errors_case :
  let c := ctx_of (put_s_mode_sync (Some true) (put_s_serde
             (Some (mk_serde false None None None None None None (Some (mk_defarg false (Some "a b") true)) None)) bare_sargs))
             [put_f_lazy h_on (put_f_fallible (Some (mk_fallible false None)) fa); fb;
              put_f_lazy h_on (put_f_fallible (Some (mk_fallible false None)) (bare_field "c" "u8"))] in
  expand no no c = GOk [("a", unknown_type); ("c", unknown_type); ("", "Invalid default string");
                        ("a", unknown_type); ("c", unknown_type)]
  /\ bad_field c (put_f_lazy h_on (put_f_fallible (Some (mk_fallible false None)) fa))
  /\ emitted_fields c = ["b"].
Proof.
  split; [vm_compute; reflexivity|]. split; [|vm_compute; reflexivity].
  split; [|left; reflexivity]. split; [reflexivity|].
  split; [intros x X; injection X as <-; reflexivity|intros x X; discriminate].
Qed.

(** A field is nowhere left out without a complaint that names it. *)
Theorem C74_nothing_dropped : forall path assignment c es f, expand path assignment c = GOk es ->
  In f (all_fields c) -> (forall m, ~ In (f_ident f, m) es) ->
  In (f_ident f) (emitted_fields c)
  /\ In (f_ident f) (emitted_defaults c)
  /\ (f_is_skipped f = false -> needs_builder_struct c = true ->
      In (f_ident f) (emitted_builder_fields c) /\ In (f_ident f) (emitted_build c))
  /\ (from_shadow_emitted c = true -> is_serde c f = true -> needs_deserialize c f = true ->
      In (f_ident f) (emitted_from_shadow c))
  /\ (into_shadow_emitted c = true -> is_serde c f = true -> needs_serialize c f = true ->
      In (f_ident f) (emitted_into_shadow c)).
Proof.
  intros path assignment c es f E I N.
  assert (X : forall P, P \/ (exists m, In (f_ident f, m) es) -> P) by (intros P [p|[m M]]; [exact p|destruct (N m M)]).
  pose proof (X _ (declared_or_reported _ _ _ _ E f I)) as D.
  pose proof (prepare_needs c f D) as [DD DM].
  split; [apply in_map, filter_In; auto|]. split; [apply in_map, filter_In; auto|].
  split; [|split].
  - intros K B. pose proof (X _ (reaches_or_reported _ _ _ _ E f I K)) as R.
    split; [apply in_map, filter_In; auto|]. apply (in_map f_ident), filter_In. split; [exact I|].
    rewrite R. apply (X _ (build_or_reported _ _ _ _ E f B I R)).
  - intros Em S De. apply (in_map f_ident), filter_In. split; [exact I|]. rewrite S, De.
    apply X, (from_or_reported _ _ _ _ E f Em I). rewrite S, De. reflexivity.
  - intros Em S Se. apply (in_map f_ident). 
    assert (Z : In f (serialized c)) by (apply filter_In; rewrite S, Se; auto).
    apply filter_In. split; [exact Z|apply (into_ok _ _ _ _ E f Em Z)].
Qed.
Print Assumptions C74_nothing_dropped.

(** Without complaints everything is there, in the order of the fields. *)
Theorem C74_complete : forall path assignment c, expand path assignment c = GOk [] ->
  emitted_fields c = map f_ident (all_fields c)
  /\ emitted_defaults c = map f_ident (all_fields c)
  /\ (needs_builder_struct c = true ->
      emitted_builder_fields c = map f_ident (filter (fun f => negb (f_is_skipped f)) (all_fields c))
      /\ emitted_build c = emitted_builder_fields c)
  /\ (from_shadow_emitted c = true ->
      emitted_from_shadow c = map f_ident (filter (fun f => is_serde c f && needs_deserialize c f) (all_fields c)))
  /\ (into_shadow_emitted c = true ->
      emitted_into_shadow c = map f_ident (filter (fun f => is_serde c f && needs_serialize c f) (all_fields c))).
Proof.
  intros path assignment c E.
  assert (X : forall P f, P \/ (exists m : string, In (f_ident f, m) []) -> P) by (intros P f [p|[m []]]; exact p).
  assert (D : forall f, In f (all_fields c) -> succeeds (prepare_field c f) = true)
    by (intros f I; apply (X _ f), (declared_or_reported _ _ _ _ E f I)).
  split; [unfold emitted_fields; rewrite filter_all; auto|].
  split; [unfold emitted_defaults; rewrite filter_all; [reflexivity|intros f I; apply (prepare_needs c f (D f I))]|].
  split; [|split].
  - intros B. unfold emitted_builder_fields, emitted_build. split; f_equal; apply filter_ext_in'.
    + intros f I. unfold reaches_builder. destruct (prepare_needs c f (D f I)) as [-> ->].
      destruct (f_is_skipped f); reflexivity.
    + intros f I. destruct (reaches_builder c f) eqn:R; [|reflexivity].
      apply (X _ f), (build_or_reported _ _ _ _ E f B I R).
  - intros Em. unfold emitted_from_shadow. f_equal. apply filter_ext_in'. intros f I.
    destruct (is_serde c f && needs_deserialize c f) eqn:S; [|reflexivity].
    apply (X _ f), (from_or_reported _ _ _ _ E f Em I S).
  - intros Em. unfold emitted_into_shadow. f_equal. apply filter_all. intros f I.
    apply (into_ok _ _ _ _ E f Em I).
Qed.
Print Assumptions C74_complete.
Example C74_complete_case :
  let c := ctx_of (put_s_mode_sync (Some true) (put_s_builder bld_on (put_s_serde serde_on bare_sargs)))
             [put_f_lazy h_on (put_f_fallible (fall_on "E") fa); fb; put_f_skip true (bare_field "c" "u8")] in
  expand yes no c = GOk [] /\ needs_builder_struct c = true /\ from_shadow_emitted c = true
  /\ emitted_fields c = ["a"; "b"; "c"] /\ emitted_build c = ["a"; "b"]
  /\ emitted_from_shadow c = ["a"; "b"] /\ emitted_into_shadow c = ["a"; "b"].
Proof. repeat split; vm_compute; reflexivity. Qed.
