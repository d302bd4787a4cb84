(** Proofs about emitted declarations (names, visibility, flavour) and whole structs. *)
From Coq Require Import List Bool String.
From Verif Require Import ArgsModel CtxModel ArgsSpec ArgsProofs RustAst CommonGen PlainGen SyncGen
  RustTyping StructGen CodegenSpec CodegenProofs CodegenValues.
Import ListNotations.
Open Scope string_scope.

(** ** Declarations *)
Definition wanted (g : fcfg) (k : hkind) : bool :=
  match k with
  | KAccessor => g_get g | KAccessorMut => g_get_mut g | KSetter => g_set g
  | KReader => g_reader g | KWriter => g_writer g | KClearer => g_clearer g
  | KPredicate => g_predicate g | KBuilder | KLazy => false
  end.
Definition vis_kind (sync : bool) (k : hkind) : hkind :=
  match k with KAccessorMut => if sync then KAccessor else KAccessorMut | _ => k end.
Definition decl_ok (sync : bool) (g : fcfg) (m : mdecl) : Prop :=
  m_name m = g_name g (m_kind m) /\ m_vis m = g_vis g (vis_kind sync (m_kind m)) /\
  m_attrs m = g_attrs g (vis_kind sync (m_kind m)) /\ wanted g (m_kind m) = true.

Ltac decls H Hin :=
  repeat match type of H with
  | context [match ?d with _ => _ end] => destruct d eqn:?; cbn [gbind andb] in H; try discriminate H
  | context [gbind ?d _] => destruct d eqn:?; cbn [gbind] in H; try discriminate H
  end;
  injection H as <-; cbn [In] in Hin;
  repeat match goal with Hi : _ \/ _ |- _ => destruct Hi | Hi : False |- _ => destruct Hi end;
  subst; repeat split; cbn; auto.

Lemma plain_decls : forall g l m, plain_methods g = GOk l -> In m l -> decl_ok false g m.
Proof.
  intros g l m H Hin. unfold plain_methods in H.
  destruct (g_skip g); [injection H as <-; destruct Hin|].
  bind_in H. injection H as <-. unfold decl_ok. split_in.
  - unfold plain_accessor in E. decls E Hin.
  - unfold plain_accessor_mut in E0. decls E0 Hin.
  - unfold plain_setter in E1. decls E1 Hin.
  - unfold plain_clearer in E2. decls E2 Hin.
  - unfold plain_predicate in E3. decls E3 Hin.
    all: match goal with Hp : _ && _ = true |- _ => apply andb_prop in Hp; tauto end.
Qed.
Lemma sync_decls : forall g l m, sync_methods g = GOk l -> In m l -> decl_ok true g m.
Proof.
  intros g l m H Hin. unfold sync_methods in H.
  destruct (g_skip g); [injection H as <-; destruct Hin|].
  bind_in H. injection H as <-. unfold decl_ok. split_in.
  - unfold sync_accessor, reader_method in E. decls E Hin.
  - unfold sync_accessor_mut in E0. decls E0 Hin.
  - unfold sync_reader, reader_method in E1. decls E1 Hin.
  - unfold sync_writer in E2. decls E2 Hin.
  - unfold sync_setter in E3. decls E3 Hin.
  - unfold sync_clearer in E4. decls E4 Hin.
  - unfold sync_predicate in E5. decls E5 Hin.
Qed.

(** ** Flavour of the emitted getter *)
Lemma plain_flavour : forall g l m, plain_methods g = GOk l -> In m l -> m_kind m = KAccessor ->
  (g_mode g = AMClone -> g_clone g = true) -> (g_mode g = AMAsRef -> g_lazy g = false) ->
  coherent g ->
  hands_out_value (m_ret m) = g_clone g || g_copy g.
Proof.
  intros g l m H Hin Hk Hcl Har [Hco Hco']. unfold plain_methods in H.
  destruct (g_skip g); [injection H as <-; destruct Hin|].
  bind_in H. injection H as <-. split_in.
  - unfold plain_accessor, fallible_return_type, maybe_optional in E. rewrite Hco in *.
    destruct (g_mode g); cbn in *; try rewrite Hcl in * by reflexivity;
    try rewrite Har in * by reflexivity;
    (destruct (g_clone g); [try discriminate (Hco' eq_refl)|]);
    repeat match type of E with
    | context [match ?d with _ => _ end] => destruct d eqn:?; cbn [gbind andb orb] in *; try discriminate
    end; injection E as <-; cbn [In] in Hin;
    repeat match goal with Hi : _ \/ _ |- _ => destruct Hi | Hi : False |- _ => destruct Hi end;
    subst; reflexivity.
  - unfold plain_accessor_mut in E0. decls E0 Hin; discriminate Hk.
  - unfold plain_setter in E1. decls E1 Hin; discriminate Hk.
  - unfold plain_clearer in E2. decls E2 Hin; discriminate Hk.
  - unfold plain_predicate in E3. decls E3 Hin; discriminate Hk.
Qed.
Lemma sync_flavour : forall g l m, sync_methods g = GOk l -> In m l -> m_kind m = KAccessor ->
  hands_out_value (m_ret m) = g_clone g || g_copy g.
Proof.
  intros g l m H Hin Hk. unfold sync_methods in H.
  destruct (g_skip g); [injection H as <-; destruct Hin|].
  bind_in H. injection H as <-. split_in.
  - unfold sync_accessor, reader_method, fallible_return_type, maybe_optional, mapped_read in E.
    destruct (g_clone g || g_copy g); decls E Hin.
  - unfold sync_accessor_mut in E0. decls E0 Hin; discriminate Hk.
  - unfold sync_reader, reader_method in E1. decls E1 Hin; discriminate Hk.
  - unfold sync_writer in E2. decls E2 Hin; discriminate Hk.
  - unfold sync_setter in E3. decls E3 Hin; discriminate Hk.
  - unfold sync_clearer in E4. decls E4 Hin; discriminate Hk.
  - unfold sync_predicate in E5. decls E5 Hin; discriminate Hk.
Qed.

(** ** Clones made by the emitted getter *)
Ltac clone_free :=
  repeat match goal with |- context [match ?d with _ => _ end] => destruct d; cbn end; reflexivity.
Lemma builder_self_clones : forall g, clone_calls (builder_self g) = 0.
Proof. intros g. unfold builder_self. clone_free. Qed.
Lemma await_clones : forall g e, clone_calls (await g e) = clone_calls e.
Proof. intros g e. unfold await. clone_free. Qed.
Lemma shortcut_clones : forall g e, clone_calls (fallible_shortcut g e) = clone_calls e.
Proof. intros g e. unfold fallible_shortcut. clone_free. Qed.
Lemma ok_return_clones : forall g e, clone_calls (fallible_ok_return g e) = clone_calls e.
Proof. intros g e. unfold fallible_ok_return. clone_free. Qed.
Lemma plain_init_clones : forall g, clone_calls (plain_lazy_init g) = 0.
Proof.
  intros g. unfold plain_lazy_init, get_or_init. destruct (g_fallible g); cbn; rewrite ?builder_self_clones; reflexivity.
Qed.

Lemma plain_clones : forall g l m, plain_methods g = GOk l -> In m l -> m_kind m = KAccessor ->
  (g_mode g = AMClone -> g_clone g = true) -> coherent g ->
  clone_calls (m_body m) = if g_clone g then 1 else 0.
Proof.
  intros g l m H Hin Hk Hcl [Hco Hco']. unfold plain_methods in H.
  destruct (g_skip g); [injection H as <-; destruct Hin|].
  bind_in H. injection H as <-. split_in.
  - assert (M : match g_mode g with AMClone => 1 | _ => 0 end = if g_clone g then 1 else 0).
    { destruct (g_mode g), (g_clone g); try reflexivity; try discriminate (Hco' eq_refl);
      discriminate (Hcl eq_refl). }
    rewrite <- M. unfold plain_accessor, fallible_return_type in E.
    destruct (g_mode g);
    repeat match type of E with
    | context [match ?d with _ => _ end] => destruct d eqn:?; cbn [gbind andb orb] in *; try discriminate
    end; injection E as <-; cbn [In] in Hin;
    repeat match goal with Hi : _ \/ _ |- _ => destruct Hi | Hi : False |- _ => destruct Hi end;
    subst; cbn; rewrite ?ok_return_clones; cbn; rewrite ?shortcut_clones, ?plain_init_clones; reflexivity.
  - unfold plain_accessor_mut in E0. decls E0 Hin; discriminate Hk.
  - unfold plain_setter in E1. decls E1 Hin; discriminate Hk.
  - unfold plain_clearer in E2. decls E2 Hin; discriminate Hk.
  - unfold plain_predicate in E3. decls E3 Hin; discriminate Hk.
Qed.
Lemma sync_clones : forall g l m, sync_methods g = GOk l -> In m l -> m_kind m = KAccessor ->
  coherent g -> clone_calls (m_body m) = if g_clone g then 1 else 0.
Proof.
  intros g l m H Hin Hk [Hco Hco']. unfold sync_methods in H.
  destruct (g_skip g); [injection H as <-; destruct Hin|].
  assert (CM : g_clone g || g_copy g = true -> forall e,
             clone_calls (cmethod g e) = (if g_clone g then 1 else 0) + clone_calls e).
  { intros O e. unfold cmethod. rewrite Hco in *. destruct (g_clone g).
    - rewrite (Hco' eq_refl). cbn. destruct (g_optional g); reflexivity.
    - cbn in O. rewrite O. destruct (g_optional g); reflexivity. }
  bind_in H. injection H as <-. split_in.
  - unfold sync_accessor, reader_method, fallible_return_type in E.
    destruct (g_clone g || g_copy g) eqn:O.
    + specialize (CM eq_refl).
      assert (D : clone_calls (if g_copy g then EFld "self" else EM0 (EFld "self") MClone) = if g_clone g then 1 else 0).
      { rewrite Hco in *. destruct (g_clone g); [rewrite (Hco' eq_refl); reflexivity|]. cbn in O. rewrite O. reflexivity. }
      repeat match type of E with
      | (if g_get g then _ else _) = _ => destruct (g_get g)
      | (if g_lazy g then _ else _) = _ => destruct (g_lazy g)
      | (if g_lock g then _ else _) = _ => destruct (g_lock g)
      | (if g_optional g then _ else _) = _ => destruct (g_optional g)
      | gbind (match ?d with _ => _ end) _ = _ => destruct d; cbn [gbind] in E; try discriminate E
      end; injection E as <-; cbn [In] in Hin;
      repeat match goal with Hi : _ \/ _ |- _ => destruct Hi | Hi : False |- _ => destruct Hi end;
      subst; cbn [m_body method clone_calls];
      rewrite ?ok_return_clones, ?shortcut_clones, ?CM, ?await_clones; cbn [clone_calls];
      rewrite ?builder_self_clones; try exact D; unfold read_name;
      destruct (g_clone g), (g_fallible g); reflexivity.
    + apply orb_false_elim in O. destruct O as [-> _].
      decls E Hin; rewrite ?await_clones; cbn; rewrite ?builder_self_clones; unfold read_name;
        try (destruct (g_fallible g)); reflexivity.
  - unfold sync_accessor_mut in E0. decls E0 Hin; discriminate Hk.
  - unfold sync_reader, reader_method in E1. decls E1 Hin; discriminate Hk.
  - unfold sync_writer in E2. decls E2 Hin; discriminate Hk.
  - unfold sync_setter in E3. decls E3 Hin; discriminate Hk.
  - unfold sync_clearer in E4. decls E4 Hin; discriminate Hk.
  - unfold sync_predicate in E5. decls E5 Hin; discriminate Hk.
Qed.

(** ** Fields in their struct *)
Lemma field_decls : forall c f l m, field_methods c f = GOk l -> In m l ->
  decl_ok (is_sync c f) (cfg_of c f) m.
Proof.
  intros c f l m H Hin. unfold field_methods in H.
  destruct (is_sync c f); [eapply sync_decls|eapply plain_decls]; eauto.
Qed.

Lemma emitted_flavour : forall c f l m, field_methods c f = GOk l -> In m l ->
  m_kind m = KAccessor ->
  (accessor_mode c f = AMClone -> is_clone c f = true) ->
  (is_sync c f = false -> accessor_mode c f = AMAsRef -> is_lazy c f = false) ->
  hands_out_value (m_ret m) = is_clone c f || is_copy c f.
Proof.
  intros c f l m H Hin Hk Hc Ha. unfold field_methods in H. destruct (is_sync c f).
  - exact (sync_flavour _ _ _ H Hin Hk).
  - exact (plain_flavour _ _ _ H Hin Hk Hc (Ha eq_refl) (cfg_coherent c f)).
Qed.

Lemma emitted_clones : forall c f l m, field_methods c f = GOk l -> In m l ->
  m_kind m = KAccessor ->
  (is_sync c f = false -> accessor_mode c f = AMClone -> is_clone c f = true) ->
  clone_calls (m_body m) = if is_clone c f then 1 else 0.
Proof.
  intros c f l m H Hin Hk Hc. unfold field_methods in H. destruct (is_sync c f).
  - exact (sync_clones _ _ _ H Hin Hk (cfg_coherent c f)).
  - exact (plain_clones _ _ _ H Hin Hk (Hc eq_refl) (cfg_coherent c f)).
Qed.

Lemma skip_no_methods : forall c f, f_skip f = true -> field_methods c f = GOk [].
Proof.
  intros c f H. unfold field_methods, plain_methods, sync_methods. cbn.
  unfold f_is_skipped. rewrite H. destruct (is_sync c f); reflexivity.
Qed.
Lemma skip_settings : forall c f, f_skip f = true ->
  is_lazy c f = false /\ is_optional c f = false /\ is_serde c f = false.
Proof.
  intros c f H. unfold is_lazy, f_is_lazy, unless_skip, is_optional, is_serde, f_is_skipped.
  rewrite H. auto.
Qed.

Lemma methods_typed_plain : forall c f cp cl t l m, is_sync c f = false ->
  type_bounds c f cp cl -> field_type c f = GOk t -> field_methods c f = GOk l -> In m l ->
  method_ok t (user_builder (is_fallible c f)) cp cl m
  = plain_well_typed (settings_of c f) (m_kind m).
Proof.
  intros c f cp cl t l m Hs Hb Ht H Hin. unfold field_type in Ht. unfold field_methods in H.
  rewrite Hs in *. injection Ht as <-.
  exact (plain_methods_typed (cfg_of c f) cp cl (cfg_coherent c f) Hb l m H Hin).
Qed.
Lemma methods_typed_sync : forall c f cp cl t l m, is_sync c f = true ->
  type_bounds c f cp cl -> field_type c f = GOk t -> field_methods c f = GOk l -> In m l ->
  method_ok t (user_builder (is_fallible c f)) cp cl m
  = sync_well_typed (settings_of c f) (m_kind m).
Proof.
  intros c f cp cl t l m Hs Hb Ht H Hin.
  destruct (f_skip f) eqn:Hsk.
  { rewrite (skip_no_methods c f Hsk) in H. injection H as <-. destruct Hin. }
  unfold field_type in Ht. unfold field_methods in H. rewrite Hs in *.
  exact (sync_methods_typed (cfg_of c f) cp cl t (cfg_coherent c f) Hb Ht Hsk l m H Hin).
Qed.

(** Ordinary configurations compile. *)
Lemma clearer_needs : forall c f, nothing_forced_off c f -> f_skip f = false ->
  needs_clearer c f = true \/ needs_predicate c f = true -> is_lazy c f = true \/ is_optional c f = true.
Proof.
  intros c f (H1 & H2 & _) Hs Hn. unfold is_optional, f_is_optional, f_is_skipped, s_is_optional.
  rewrite Hs. destruct (is_lazy c f); [auto|right].
  destruct (f_optional f) as [[]|]; [reflexivity|congruence|].
  destruct (s_optional (c_args c)) as [[]|]; [reflexivity|congruence|].
  cbn. destruct Hn as [-> | ->]; [reflexivity|apply orb_true_r].
Qed.
Lemma lock_when : forall c f, nothing_forced_off c f ->
  needs_reader c f = true \/ needs_writer c f = true \/ is_optional c f = true ->
  needs_lock c f = true.
Proof.
  intros c f (_ & _ & H1 & H2) Hn. unfold needs_lock, f_needs_lock, s_needs_lock.
  destruct (f_lock f) as [[]|]; [reflexivity|congruence|].
  destruct (s_lock (c_args c)) as [[]|]; [reflexivity|congruence|].
  cbn. destruct Hn as [-> | [-> | ->]]; cbn; rewrite ?orb_true_r; reflexivity.
Qed.
Lemma ordinary_plain_compiles : forall c f cp cl t l m, is_sync c f = false ->
  nothing_forced_off c f -> ordinary_plain (settings_of c f) ->
  type_bounds c f cp cl -> field_type c f = GOk t -> field_methods c f = GOk l -> In m l ->
  method_ok t (user_builder (is_fallible c f)) cp cl m = true.
Proof.
  intros c f cp cl t l m Hs Hoff (O1 & O2 & O3) Hb Ht H Hin.
  destruct (f_skip f) eqn:Hsk.
  { rewrite (skip_no_methods c f Hsk) in H. injection H as <-. destruct Hin. }
  rewrite (methods_typed_plain c f cp cl t l m Hs Hb Ht H Hin).
  destruct (field_decls c f l m H Hin) as (_ & _ & _ & Hw).
  unfold plain_well_typed. destruct (m_kind m); try reflexivity; cbn in *.
  - destruct (accessor_mode c f); try reflexivity; [|congruence].
    rewrite O3 by reflexivity. rewrite orb_true_r. reflexivity.
  - destruct (clearer_needs c f Hoff Hsk (or_introl Hw)) as [E|E]; rewrite E in *.
    + rewrite O2; reflexivity.
    + destruct (is_lazy c f); [rewrite O2; reflexivity|reflexivity].
Qed.
Lemma ordinary_sync_compiles : forall c f cp cl t l m, is_sync c f = true ->
  nothing_forced_off c f -> ordinary_sync (settings_of c f) ->
  (is_async c f = true -> is_lazy c f = false -> needs_lock c f = true ->
   needs_accessor_mut c f = false) ->
  type_bounds c f cp cl -> field_type c f = GOk t -> field_methods c f = GOk l -> In m l ->
  method_ok t (user_builder (is_fallible c f)) cp cl m = true.
Proof.
  intros c f cp cl t l m Hs Hoff (O1 & O2 & O3 & O4) Hasync Hb Ht H Hin.
  destruct (f_skip f) eqn:Hsk.
  { rewrite (skip_no_methods c f Hsk) in H. injection H as <-. destruct Hin. }
  rewrite (methods_typed_sync c f cp cl t l m Hs Hb Ht H Hin).
  destruct (field_decls c f l m H Hin) as (_ & _ & _ & Hw).
  pose proof (clearer_needs c f Hoff Hsk) as Hcl. pose proof (lock_when c f Hoff) as Hlk.
  unfold sync_well_typed, by_value in *. cbn in *.
  destruct (is_lazy c f).
  { rewrite O1 by reflexivity. destruct (m_kind m); reflexivity. }
  rewrite O2 by reflexivity. specialize (O4 eq_refl).
  destruct (m_kind m); cbn in *; rewrite ?andb_false_r, ?orb_true_r; try reflexivity.
  - destruct (needs_lock c f); [|reflexivity].
    destruct (is_async c f); [rewrite O4 by reflexivity; reflexivity|].
    destruct (is_clone c f || is_copy c f); reflexivity.
  - destruct (needs_lock c f), (is_async c f); try reflexivity.
    rewrite Hasync in Hw by reflexivity. discriminate.
  - destruct (Hcl (or_introl Hw)) as [E|E]; [discriminate|]. rewrite E, Hlk; auto.
  - destruct (Hcl (or_intror Hw)) as [E|E]; [discriminate|]. rewrite E, Hlk; auto.
  - rewrite Hlk; auto.
  - rewrite Hlk; auto.
Qed.

(** ** Values in their struct *)
Lemma default_coherent : forall f, default_value f <> None -> f_has_default_value f = true.
Proof.
  intros f. unfold default_value. destruct (f_has_default_value f); congruence.
Qed.
Lemma default_typed : forall c f us b t, field_type c f = GOk t -> f_skip f = false -> exists e,
  field_default c f = GOk e /\ has_type (in_default us b) e t = true.
Proof.
  intros c f us b t Ht Hs. unfold field_type, field_default in *. destruct (is_sync c f).
  - apply sync_default_typed; auto.
  - injection Ht as <-. apply plain_default_typed.
Qed.
Lemma from_shadow_typed : forall c f us b t, field_type c f = GOk t -> f_skip f = false -> exists e,
  field_from_shadow c f = GOk e /\ has_type (in_from_shadow us (cfg_of c f) b) e t = true.
Proof.
  intros c f us b t Ht Hs. unfold field_type, field_from_shadow in *. destruct (is_sync c f).
  - apply sync_from_shadow_typed; auto.
  - injection Ht as <-. apply plain_from_shadow_typed.
Qed.
Lemma from_struct_typed : forall c f us b t, field_type c f = GOk t -> f_skip f = false ->
  has_type (in_into_shadow us t b) (field_from_struct c f) (shadow_type (cfg_of c f))
  = negb (is_sync c f && negb (is_lazy c f) && is_optional c f && negb (needs_lock c f)).
Proof.
  intros c f us b t Ht Hs. unfold field_type, field_from_struct in *. destruct (is_sync c f).
  - rewrite (sync_from_struct_typed _ us b t Ht Hs). cbn.
    destruct (is_lazy c f), (is_optional c f), (needs_lock c f); reflexivity.
  - injection Ht as <-. rewrite plain_from_struct_typed. reflexivity.
Qed.
Lemma build_typed_plain : forall c f us b t, is_sync c f = false -> field_type c f = GOk t -> exists e,
  field_build_value c f = GOk e /\ has_type (in_build us b) e t = true.
Proof.
  intros c f us b t Hs Ht. unfold field_type, field_build_value in *. rewrite Hs in *.
  injection Ht as <-. apply plain_builder_typed.
Qed.
Lemma build_typed_sync : forall c f us b t, is_sync c f = true -> field_type c f = GOk t ->
  f_skip f = false -> bare_default f && (is_lazy c f || is_optional c f) = false -> exists e,
  field_build_value c f = GOk e /\
  has_type (in_build us b) e t
  = negb (us && match default_value f with Some _ => true | None => false end)
    || self_corrected c f.
Proof.
  intros c f us b t Hs Ht Hsk Hb. unfold field_type, field_build_value in *. rewrite Hs in *.
  apply (sync_builder_typed (cfg_of c f) us b t Ht Hsk (default_coherent f) Hb).
Qed.
Lemma build_panics_sync : forall c f t, is_sync c f = true -> field_type c f = GOk t ->
  bare_default f && (is_lazy c f || is_optional c f) = true ->
  exists msg, field_build_value c f = GPanic msg.
Proof.
  intros c f t Hs Ht Hb. unfold field_type, field_build_value in *. rewrite Hs in *.
  eexists. exact (sync_builder_panics (cfg_of c f) t Ht Hb).
Qed.
Lemma setter_typed : forall c f m b cp cl, In (f_ident f, m) (builder_setters c) ->
  method_ok (TOpt TT) b cp cl m = true /\ m_kind m = KBuilder.
Proof.
  intros c f m b cp cl H. unfold builder_setters in H. apply in_flat_map in H.
  destruct H as (f' & _ & H). destruct (field_builder (cfg_of c f')) eqn:E; [|destruct H].
  destruct H as [H|[]]. injection H as _ <-. exact (field_builder_typed _ _ b cp cl E).
Qed.

(** ** skip *)
Lemma skip_not_in_builder : forall c f, f_skip f = true -> ~ In f (builder_input c).
Proof.
  intros c f H Hin. apply filter_In in Hin. destruct Hin as [_ Hin].
  unfold f_is_skipped in Hin. rewrite H in Hin. discriminate.
Qed.
Lemma skip_type : forall c f t, f_skip f = true -> field_type c f = GOk t ->
  (t = TT <-> is_sync c f = true \/ is_inner_mut c f = false).
Proof.
  intros c f t H Ht. unfold field_type in Ht. destruct (is_sync c f).
  - rewrite (sync_skipped_type (cfg_of c f) t Ht H). tauto.
  - injection Ht as <-. destruct (skip_settings c f H) as (El & Eo & _).
    unfold plain_type. cbn. rewrite El, Eo. destruct (is_inner_mut c f); split; intros; auto;
      try discriminate. destruct H0; discriminate.
Qed.
Lemma skip_default : forall c f us b t, f_skip f = true -> field_type c f = GOk t -> exists e,
  field_default c f = GOk e /\
  has_type (in_default us b) e t = negb (is_sync c f && needs_lock c f).
Proof.
  intros c f us b t H Ht. unfold field_type, field_default in *.
  destruct (skip_settings c f H) as (El & Eo & _). destruct (is_sync c f).
  - pose proof (sync_skipped_type (cfg_of c f) t Ht H) as ->.
    destruct (sync_skipped_default (cfg_of c f) us b TT Ht H Eo) as (e & E1 & E2).
    exists e. split; [exact E1|]. rewrite E2. cbn. rewrite El. reflexivity.
  - injection Ht as <-. apply plain_default_typed.
Qed.

(** ** off *)
Lemma off_not_emitted : forall c f k l m, off_argument f k = true ->
  field_methods c f = GOk l -> In m l -> m_kind m <> k.
Proof.
  intros c f k l m Ho H Hin E. destruct (field_decls c f l m H Hin) as (_ & _ & _ & Hw).
  rewrite E in Hw. destruct k; cbn in *; try discriminate;
  unfold needs_accessor, needs_accessor_mut, needs_setter, needs_reader, needs_writer,
    needs_clearer, needs_predicate, f_needs_accessor, f_needs_accessor_mut, f_needs_setter,
    f_needs_reader, f_needs_writer, f_needs_clearer, f_needs_predicate, acc_base, set_base in *;
  match goal with Hx : match ?d with _ => _ end = true |- _ => destruct d; try discriminate Hx end;
  cbn in *; unfold helper_is_true in *; rewrite Ho in Hw; discriminate Hw.
Qed.
Lemma off_no_setter : forall c f, off_argument f KBuilder = true -> forced_builder f = false ->
  field_builder (cfg_of c f) = None.
Proof.
  intros c f Ho Hf. unfold field_builder. cbn. rewrite Hf.
  unfold needs_builder, f_needs_builder, bld_base. cbn in Ho.
  destruct (f_builder f); [|discriminate]. cbn. unfold helper_is_true. rewrite Ho. reflexivity.
Qed.
Lemma off_not_lazy : forall c f, off_argument f KLazy = true -> is_lazy c f = false.
Proof.
  intros c f Ho. unfold is_lazy, f_is_lazy, unless_skip. destruct (f_skip f); [reflexivity|].
  cbn in Ho. destruct (f_lazy f); [|discriminate]. cbn. unfold helper_is_true. rewrite Ho.
  reflexivity.
Qed.

(** ** Serde selection *)
Lemma serde_on_struct : forall s, s_is_serde s = struct_serde s.
Proof.
  intros s. unfold s_is_serde, struct_serde, serde_is_serde. destruct (s_serde s) as [w|]; [|reflexivity].
  destruct (se_off w), (se_serialize w) as [[]|], (se_deserialize w) as [[]|]; reflexivity.
Qed.
Lemma serialize_emitted : forall c, into_shadow_emitted c
  = struct_serde (c_args c) &&
    match s_serde (c_args c) with
    | Some w => direction (se_serialize w) (se_deserialize w) | None => false end.
Proof.
  intros c. unfold into_shadow_emitted. rewrite serde_on_struct. f_equal.
  unfold s_needs_serialize, serde_needs_serialize. destruct (s_serde (c_args c)) as [w|]; [|reflexivity].
  destruct (se_serialize w) as [[]|], (se_deserialize w) as [[]|]; reflexivity.
Qed.
Lemma deserialize_emitted : forall c, from_shadow_emitted c
  = struct_serde (c_args c) &&
    match s_serde (c_args c) with
    | Some w => direction (se_deserialize w) (se_serialize w) | None => false end.
Proof.
  intros c. unfold from_shadow_emitted. rewrite serde_on_struct. f_equal.
  unfold s_needs_deserialize, serde_needs_deserialize. destruct (s_serde (c_args c)) as [w|]; [|reflexivity].
  destruct (se_serialize w) as [[]|], (se_deserialize w) as [[]|]; reflexivity.
Qed.
Lemma serialized_field : forall c f,
  is_serde c f && needs_serialize c f = struct_serde (c_args c) && field_serializes f.
Proof.
  intros c f. unfold is_serde, needs_serialize, field_serializes, field_serde, f_is_skipped,
    f_is_serde, f_needs_serialize, serde_is_serde, serde_needs_serialize.
  rewrite serde_on_struct. destruct (f_skip f), (struct_serde (c_args c)); try reflexivity.
  destruct (f_serde f) as [w|]; [|reflexivity].
  destruct (se_off w), (se_serialize w) as [[]|], (se_deserialize w) as [[]|]; reflexivity.
Qed.
Lemma deserialized_field : forall c f,
  is_serde c f && needs_deserialize c f = struct_serde (c_args c) && field_deserializes f.
Proof.
  intros c f. unfold is_serde, needs_deserialize, field_deserializes, field_serde, f_is_skipped,
    f_is_serde, f_needs_deserialize, serde_is_serde, serde_needs_deserialize.
  rewrite serde_on_struct. destruct (f_skip f), (struct_serde (c_args c)); try reflexivity.
  destruct (f_serde f) as [w|]; [|reflexivity].
  destruct (se_off w), (se_serialize w) as [[]|], (se_deserialize w) as [[]|]; reflexivity.
Qed.
Lemma is_serde_either : forall c f,
  is_serde c f = struct_serde (c_args c) && (field_serializes f || field_deserializes f).
Proof.
  intros c f. rewrite andb_orb_distrib_r, <- serialized_field, <- deserialized_field.
  rewrite <- andb_orb_distrib_r. unfold is_serde, needs_serialize, needs_deserialize,
    f_is_serde, f_needs_serialize, f_needs_deserialize, serde_is_serde, serde_needs_serialize,
    serde_needs_deserialize.
  destruct (f_is_skipped f), (s_is_serde (c_args c)); try reflexivity.
  destruct (f_serde f) as [w|]; [|reflexivity].
  destruct (se_off w), (se_serialize w) as [[]|], (se_deserialize w) as [[]|]; reflexivity.
Qed.
Lemma shadow_skip_agrees : forall c f, struct_serde (c_args c) = true ->
  shadow_skip c f = (negb (field_serializes f), negb (field_deserializes f)).
Proof.
  intros c f H. pose proof (is_serde_either c f) as E. pose proof (serialized_field c f) as S.
  pose proof (deserialized_field c f) as D. rewrite H in *. cbn in *. unfold shadow_skip.
  rewrite serde_on_struct, H. destruct (is_serde c f); cbn in *.
  - rewrite <- S, <- D. destruct (needs_serialize c f), (needs_deserialize c f); try reflexivity.
    rewrite <- S, <- D in E. discriminate.
  - rewrite <- S, <- D. reflexivity.
Qed.

(** ** Complete literals *)
Lemma NoDup_filter_map : forall (p : field -> bool) l,
  NoDup (map f_ident l) -> NoDup (map f_ident (filter p l)).
Proof.
  intros p l. induction l as [|a l IH]; cbn; intros H; [constructor|].
  inversion_clear H. destruct (p a); cbn; [constructor|]; auto.
  intros Hin. apply H0. apply in_map_iff in Hin. destruct Hin as (x & E & Hx).
  apply filter_In in Hx. rewrite <- E. apply in_map, (proj1 Hx).
Qed.
Lemma incl_filter_map : forall (p : field -> bool) l,
  incl (map f_ident (filter p l)) (map f_ident l).
Proof.
  intros p l x H. apply in_map_iff in H. destruct H as (y & E & Hy). rewrite <- E.
  apply in_map. apply filter_In in Hy. apply (proj1 Hy).
Qed.
Lemma ident_inj : forall l (a b : field), NoDup (map f_ident l) -> In a l -> In b l ->
  f_ident a = f_ident b -> a = b.
Proof.
  induction l as [|x l IH]; cbn; intros a b H Ha Hb E; [destruct Ha|]. inversion_clear H.
  destruct Ha as [<-|Ha], Hb as [<-|Hb]; auto; exfalso; apply H0; [rewrite E|rewrite <- E];
    apply in_map; assumption.
Qed.
Lemma incl_filter_iff : forall (p : field -> bool) l, NoDup (map f_ident l) ->
  (incl (map f_ident l) (map f_ident (filter p l)) <-> forall f, In f l -> p f = true).
Proof.
  intros p l Hn. split.
  - intros H f Hf. specialize (H (f_ident f) (in_map f_ident l f Hf)).
    apply in_map_iff in H. destruct H as (y & E & Hy). apply filter_In in Hy.
    rewrite <- (ident_inj l y f Hn (proj1 Hy) Hf E). apply (proj2 Hy).
  - intros H x Hx. apply in_map_iff in Hx. destruct Hx as (y & E & Hy). rewrite <- E.
    apply in_map. apply filter_In. auto.
Qed.
Lemma lit_map : forall l (h : field -> gres expr) b,
  lit_idents (mk_literal (map (fun f => (f_ident f, h f)) l) b) = map f_ident l.
Proof. intros. unfold lit_idents. cbn. rewrite map_map. reflexivity. Qed.

Lemma default_complete : forall c, NoDup (map f_ident (all_fields c)) ->
  complete (lit_idents (default_literal c)) (lit_base (default_literal c)) (map fst (struct_fields c)).
Proof.
  intros c H. unfold default_literal, struct_fields. rewrite lit_map, map_map. cbn.
  repeat split; auto using incl_refl.
Qed.
Lemma from_shadow_complete : forall c, NoDup (map f_ident (all_fields c)) ->
  struct_serde (c_args c) = true ->
  (complete (lit_idents (from_shadow_literal c)) (lit_base (from_shadow_literal c))
     (map fst (struct_fields c))
   <-> needs_default c = true \/ forall f, In f (all_fields c) -> field_deserializes f = true).
Proof.
  intros c H Hs. unfold from_shadow_literal, struct_fields. rewrite lit_map, map_map. cbn [fst lit_base].
  unfold complete. set (p := fun f => is_serde c f && needs_deserialize c f).
  assert (Hp : forall f, p f = field_deserializes f).
  { intros f. unfold p. rewrite deserialized_field, Hs. reflexivity. }
  split.
  - intros (_ & _ & Hb). destruct (needs_default c); [auto|right]. intros f Hf.
    rewrite <- Hp. apply (proj1 (incl_filter_iff p (all_fields c) H) (Hb eq_refl) f Hf).
  - intros Hd. split; [apply NoDup_filter_map, H|split; [apply incl_filter_map|]].
    intros Hn. destruct Hd as [Hd|Hd]; [congruence|].
    apply (incl_filter_iff p (all_fields c) H). intros f Hf. rewrite Hp. auto.
Qed.
Lemma filter_filter : forall (p q : field -> bool) l,
  filter (fun f => p f && q f) l = filter q (filter p l).
Proof.
  intros p q l. induction l as [|a l IH]; cbn; [reflexivity|].
  destruct (p a); cbn; [|exact IH]. destruct (q a); [f_equal|]; exact IH.
Qed.
Lemma into_shadow_complete : forall c, NoDup (map f_ident (all_fields c)) ->
  struct_serde (c_args c) = true ->
  (complete (lit_idents (into_shadow_literal c)) (lit_base (into_shadow_literal c))
     (map fst (shadow_fields c))
   <-> forall f, In f (all_fields c) -> field_deserializes f = true -> field_serializes f = true).
Proof.
  intros c H Hs. unfold into_shadow_literal, shadow_fields, serialized, shadow_input.
  rewrite lit_map, map_map. cbn [fst lit_base]. unfold complete.
  rewrite filter_filter. set (l := filter (is_serde c) (all_fields c)).
  assert (Hl : NoDup (map f_ident l)) by (apply NoDup_filter_map, H).
  assert (Hin : forall f, In f l <-> In f (all_fields c) /\ (field_serializes f || field_deserializes f) = true).
  { intros f. unfold l. rewrite filter_In, is_serde_either, Hs. reflexivity. }
  assert (Hser : forall f, is_serde c f = true -> needs_serialize c f = field_serializes f).
  { intros f E. pose proof (serialized_field c f) as Hx. rewrite Hs, E in Hx. exact Hx. }
  split.
  - intros (_ & _ & Hb) f Hf Hd.
    assert (Hfl : In f l) by (apply Hin; rewrite Hd, orb_true_r; auto).
    pose proof (proj1 (incl_filter_iff (needs_serialize c) l Hl) (Hb eq_refl) f Hfl) as Hx.
    rewrite <- Hser; [exact Hx|]. apply filter_In in Hfl. apply (proj2 Hfl).
  - intros Hd. split; [apply NoDup_filter_map, Hl|split; [apply incl_filter_map|]].
    intros _. apply (incl_filter_iff _ l Hl). intros f Hf.
    rewrite Hser by (apply filter_In in Hf; apply (proj2 Hf)). apply Hin in Hf.
    destruct Hf as [Hf Ho]. destruct (field_serializes f) eqn:E; [reflexivity|].
    cbn in Ho. rewrite <- E. auto.
Qed.

Lemma extra_skipped : forall c, filter (fun f => negb (f_is_skipped f)) (extra_fields c) = [].
Proof.
  intros c. unfold extra_fields. destruct (s_is_ref_counted (c_args c)); [|reflexivity].
  destruct (myself_field c); reflexivity.
Qed.
Lemma build_idents : forall c,
  lit_idents (build_literal c) = (map f_ident (extra_fields c)
    ++ map f_ident (filter (fun f => negb (f_is_skipped f)) (c_input_fields c)))%list.
Proof.
  intros c. unfold build_literal, lit_idents, builder_input, all_fields. cbn [lit_fields].
  rewrite map_app, map_map, filter_app, extra_skipped. cbn [app fst]. f_equal.
  unfold extra_fields. destruct (s_is_ref_counted (c_args c)); [|reflexivity].
  destruct (myself_field c); reflexivity.
Qed.
Lemma build_base : forall c, all_built c -> lit_base (build_literal c) = false.
Proof.
  intros c H. unfold build_literal. cbn [lit_base].
  assert (E : existsb (fun f => match field_build_value c f with GErr _ => true | _ => false end)
                (builder_input c) = false).
  { destruct (existsb _ _) eqn:E; [|reflexivity]. apply existsb_exists in E.
    destruct E as (f & Hf & E). destruct (H f Hf) as (e & He). rewrite He in E. discriminate. }
  rewrite E. reflexivity.
Qed.
Lemma NoDup_app_filter : forall (p : field -> bool) l1 l2, NoDup (map f_ident (l1 ++ l2)) ->
  NoDup (map f_ident l1 ++ map f_ident (filter p l2)).
Proof.
  intros p l1 l2. induction l1 as [|a l1 IH]; cbn; intros H.
  - apply NoDup_filter_map, H.
  - inversion_clear H. constructor; [|auto]. rewrite in_app_iff. intros [Hi|Hi]; apply H0;
      rewrite map_app, in_app_iff; [auto|right]. apply (incl_filter_map p l2 _ Hi).
Qed.
Lemma build_complete : forall c, NoDup (map f_ident (all_fields c)) -> all_built c ->
  (complete (lit_idents (build_literal c)) (lit_base (build_literal c)) (map fst (struct_fields c))
   <-> forall f, In f (c_input_fields c) -> f_skip f = false).
Proof.
  intros c H Hb. rewrite (build_base c Hb), build_idents. unfold struct_fields, all_fields in *.
  rewrite map_map. cbn [fst]. set (p := fun f => negb (f_is_skipped f)). unfold complete.
  rewrite map_app in *. split.
  - intros (_ & _ & Hi) f Hf. specialize (Hi eq_refl (f_ident f)).
    rewrite !in_app_iff in Hi. specialize (Hi (or_intror (in_map f_ident _ f Hf))).
    destruct Hi as [Hi|Hi].
    + exfalso. clear -H Hi Hf. induction (extra_fields c) as [|x l IH]; [destruct Hi|].
      cbn in *. inversion_clear H. destruct Hi as [Hi|Hi]; [|auto]. apply H0. rewrite Hi, in_app_iff.
      right. apply in_map. exact Hf.
    + apply in_map_iff in Hi. destruct Hi as (y & E & Hy). apply filter_In in Hy.
      destruct Hy as [Hy Hp].
      assert (Hn : NoDup (map f_ident (c_input_fields c))).
      { clear -H. induction (extra_fields c) as [|x l IH]; [exact H|]. inversion_clear H. auto. }
      rewrite (ident_inj _ y f Hn Hy Hf E) in Hp. unfold p, f_is_skipped in Hp.
      destruct (f_skip f); [discriminate|reflexivity].
  - intros Hs. assert (E : filter p (c_input_fields c) = c_input_fields c).
    { induction (c_input_fields c) as [|x l IH]; [reflexivity|]. cbn. unfold p at 1, f_is_skipped.
      rewrite (Hs x (or_introl eq_refl)). cbn. f_equal. apply IH.
      - clear -H. rewrite map_cons in H. apply NoDup_remove_1 in H. exact H.
      - intros f Hf. apply Hs. right. exact Hf. }
    rewrite E. repeat split; auto using incl_refl.
Qed.
(** The fields of the builder type and of its new() agree unless [rc] is switched off. *)
Lemma builder_new_complete : forall c, NoDup (builder_new_fields c) ->
  (complete (builder_new_fields c) false (builder_fields c)
   <-> s_is_ref_counted (c_args c) = true \/ myself_field c = None).
Proof.
  intros c H. unfold complete, builder_new_fields, builder_fields in *.
  destruct (s_is_ref_counted (c_args c)).
  - split; [auto|]. intros _. destruct (myself_field c); repeat split; auto using incl_refl.
  - destruct (myself_field c) as [n|]; cbn in *.
    + split; [|intros [X|X]; discriminate]. intros (_ & Hi & _). exfalso. inversion_clear H.
      apply H0. apply Hi. left. reflexivity.
    + split; [auto|]. intros _. repeat split; auto using incl_refl.
Qed.

(** ** Which methods are emitted *)
Lemma plain_kinds : forall g l, plain_methods g = GOk l -> g_skip g = false ->
  map m_kind l = filter (fun k => match k with KPredicate => g_lazy g || g_optional g | _ => true end
                                  && wanted g k)
                   [KAccessor; KAccessorMut; KSetter; KClearer; KPredicate].
Proof.
  intros g l H Hs. unfold plain_methods in H. rewrite Hs in H. bind_in H. injection H as <-.
  unfold plain_accessor, plain_accessor_mut, plain_setter, plain_clearer, plain_predicate, wanted in *.
  rewrite !map_app. cbn [filter andb].
  rewrite (andb_comm (g_lazy g || g_optional g)).
  assert (Ha : map m_kind a = if g_get g then [KAccessor] else []).
  { clear -E. destruct (g_get g); [|injection E as <-; reflexivity].
    unfold fallible_return_type in E. repeat match type of E with
    | context [match ?d with _ => _ end] => destruct d; cbn [gbind] in E; try discriminate E end;
    injection E as <-; reflexivity. }
  assert (Ha0 : map m_kind a0 = if g_get_mut g then [KAccessorMut] else []).
  { clear -E0. destruct (g_get_mut g); [|injection E0 as <-; reflexivity].
    unfold fallible_return_type in E0. repeat match type of E0 with
    | context [match ?d with _ => _ end] => destruct d; cbn [gbind] in E0; try discriminate E0 end;
    injection E0 as <-; reflexivity. }
  assert (Ha1 : map m_kind a1 = if g_set g then [KSetter] else []).
  { clear -E1. repeat match type of E1 with
    | context [match ?d with _ => _ end] => destruct d end; injection E1 as <-; reflexivity. }
  assert (Ha2 : map m_kind a2 = if g_clearer g then [KClearer] else []).
  { clear -E2. repeat match type of E2 with
    | context [match ?d with _ => _ end] => destruct d end; injection E2 as <-; reflexivity. }
  assert (Ha3 : map m_kind a3 = if g_predicate g && (g_lazy g || g_optional g) then [KPredicate] else []).
  { clear -E3. destruct (g_predicate g && (g_lazy g || g_optional g)); [|injection E3 as <-; reflexivity].
    destruct (g_lazy g); injection E3 as <-; reflexivity. }
  rewrite Ha, Ha0, Ha1, Ha2, Ha3.
  destruct (g_get g), (g_get_mut g), (g_set g), (g_clearer g); cbn [app];
    destruct (g_predicate g && (g_lazy g || g_optional g)); reflexivity.
Qed.
Lemma sync_kinds : forall g l, sync_methods g = GOk l -> g_skip g = false ->
  map m_kind l = filter (wanted g)
                   [KAccessor; KAccessorMut; KReader; KWriter; KSetter; KClearer; KPredicate].
Proof.
  intros g l H Hs. unfold sync_methods in H. rewrite Hs in H. bind_in H. injection H as <-.
  rewrite !map_app. cbn [filter wanted].
  assert (HR : forall k r, reader_method g k = GOk r -> map m_kind r = [k]).
  { intros k r Hr. unfold reader_method, fallible_return_type in Hr. repeat match type of Hr with
    | context [match ?d with _ => _ end] => destruct d; cbn [gbind] in Hr; try discriminate Hr end;
    injection Hr as <-; reflexivity. }
  assert (Ha : map m_kind a = if g_get g then [KAccessor] else []).
  { clear -E HR. unfold sync_accessor in E. destruct (g_get g); [|injection E as <-; reflexivity].
    destruct (negb (g_clone g || g_copy g) && (g_lazy g || g_lock g)) eqn:Eb.
    - apply andb_prop in Eb. destruct Eb as [Eb1 Eb2]. apply negb_true_iff in Eb1.
      rewrite Eb1, Eb2 in E. apply HR, E.
    - unfold fallible_return_type in E. destruct (g_clone g || g_copy g); cbn in Eb;
      [|rewrite Eb in E]; repeat match type of E with
      | context [match ?d with _ => _ end] => destruct d; cbn [gbind] in E; try discriminate E end;
      injection E as <-; reflexivity. }
  assert (Ha0 : map m_kind a0 = if g_get_mut g then [KAccessorMut] else []).
  { clear -E0. unfold sync_accessor_mut, fallible_return_type in E0. repeat match type of E0 with
    | context [match ?d with _ => _ end] => destruct d; cbn [gbind] in E0; try discriminate E0 end;
    injection E0 as <-; reflexivity. }
  assert (Ha1 : map m_kind a1 = if g_reader g then [KReader] else []).
  { clear -E1 HR. unfold sync_reader in E1. destruct (g_reader g); [apply HR, E1|].
    injection E1 as <-. reflexivity. }
  assert (Ha2 : map m_kind a2 = if g_writer g then [KWriter] else []).
  { clear -E2. unfold sync_writer, wrapper_type_ok in E2. repeat match type of E2 with
    | context [match ?d with _ => _ end] => destruct d; cbn [gbind] in E2; try discriminate E2 end;
    injection E2 as <-; reflexivity. }
  assert (Ha3 : map m_kind a3 = if g_set g then [KSetter] else []).
  { clear -E3. unfold sync_setter in E3. repeat match type of E3 with
    | context [match ?d with _ => _ end] => destruct d end; injection E3 as <-; reflexivity. }
  assert (Ha4 : map m_kind a4 = if g_clearer g then [KClearer] else []).
  { clear -E4. unfold sync_clearer in E4. destruct (g_clearer g); injection E4 as <-; reflexivity. }
  assert (Ha5 : map m_kind a5 = if g_predicate g then [KPredicate] else []).
  { clear -E5. unfold sync_predicate in E5. repeat match type of E5 with
    | context [match ?d with _ => _ end] => destruct d end; injection E5 as <-; reflexivity. }
  rewrite Ha, Ha0, Ha1, Ha2, Ha3, Ha4, Ha5. clear.
  destruct (g_get g), (g_get_mut g), (g_reader g), (g_writer g), (g_set g), (g_clearer g),
    (g_predicate g); reflexivity.
Qed.
Lemma methods_generated : forall c f, is_fallible c f = false \/ error_known c f = true ->
  (exists t, field_type c f = GOk t) /\ exists l, field_methods c f = GOk l.
Proof.
  intros c f H. set (g := cfg_of c f).
  assert (Hg : g_fallible g = false \/ g_error_known g = true) by exact H.
  assert (HF : forall t, exists t', fallible_return_type g t = GOk t').
  { intros t. unfold fallible_return_type. destruct Hg as [-> | ->]; [eauto|].
    destruct (g_fallible g); eauto. }
  assert (HW : wrapper_type_ok g = GOk tt).
  { unfold wrapper_type_ok. destruct Hg as [-> | ->]; [reflexivity|].
    destruct (g_fallible g); reflexivity. }
  assert (HR : forall k, exists r, reader_method g k = GOk r).
  { intros k. unfold reader_method. destruct (HF (mapped_read g TT)) as (t' & ->). cbn [gbind].
    repeat match goal with |- context [if ?d then _ else _] => destruct d end; eauto. }
  unfold field_type, field_methods. fold g. destruct (is_sync c f); split.
  - unfold sync_type. rewrite HW. cbn. eauto.
  - unfold sync_methods. destruct (g_skip g); [eauto|].
    assert (exists r, sync_accessor g = GOk r) as (? & ->).
    { unfold sync_accessor. destruct (g_get g); [|eauto]. destruct (HF TT) as (? & ->).
      destruct (HF (maybe_optional g TT)) as (? & ->). cbn [gbind]. destruct (HR KAccessor) as (? & ->).
      repeat match goal with |- context [if ?d then _ else _] => destruct d end; eauto. }
    assert (exists r, sync_accessor_mut g = GOk r) as (? & ->).
    { unfold sync_accessor_mut. destruct (HF (TMapW (g_async g) TT)) as (? & ->). cbn [gbind].
      repeat match goal with |- context [if ?d then _ else _] => destruct d end; eauto. }
    assert (exists r, sync_reader g = GOk r) as (? & ->).
    { unfold sync_reader. destruct (g_reader g); eauto. }
    assert (exists r, sync_writer g = GOk r) as (? & ->).
    { unfold sync_writer. rewrite HW. cbn [gbind].
      repeat match goal with |- context [if ?d then _ else _] => destruct d end; eauto. }
    assert (exists r, sync_setter g = GOk r) as (? & ->).
    { unfold sync_setter.
      repeat match goal with |- context [if ?d then _ else _] => destruct d end; eauto. }
    assert (exists r, sync_clearer g = GOk r) as (? & ->).
    { unfold sync_clearer. destruct (g_clearer g); eauto. }
    assert (exists r, sync_predicate g = GOk r) as (? & ->).
    { unfold sync_predicate.
      repeat match goal with |- context [if ?d then _ else _] => destruct d end; eauto. }
    cbn [gbind]. rewrite HW. destruct (g_lazy g && g_async g); cbn; eauto.
  - eauto.
  - unfold plain_methods. destruct (g_skip g); [eauto|].
    assert (exists r, plain_accessor g = GOk r) as (? & ->).
    { unfold plain_accessor. destruct (HF (opt_ref_t (g_mode g) TT)) as (? & ->). cbn [gbind].
      repeat match goal with |- context [if ?d then _ else _] => destruct d end; eauto. }
    assert (exists r, plain_accessor_mut g = GOk r) as (? & ->).
    { unfold plain_accessor_mut. destruct (HF (TMut TT)) as (? & ->). cbn [gbind].
      repeat match goal with |- context [if ?d then _ else _] => destruct d end; eauto. }
    assert (exists r, plain_setter g = GOk r) as (? & ->).
    { unfold plain_setter.
      repeat match goal with |- context [if ?d then _ else _] => destruct d end; eauto. }
    assert (exists r, plain_clearer g = GOk r) as (? & ->).
    { unfold plain_clearer.
      repeat match goal with |- context [if ?d then _ else _] => destruct d end; eauto. }
    assert (exists r, plain_predicate g = GOk r) as (? & ->).
    { unfold plain_predicate.
      repeat match goal with |- context [if ?d then _ else _] => destruct d end; eauto. }
    cbn. eauto.
Qed.

Lemma emitted_iff : forall c f l k, f_skip f = false -> field_methods c f = GOk l ->
  (In k (map m_kind l) <-> asked c f k = true).
Proof.
  intros c f l k Hs H. unfold field_methods in H. unfold asked.
  destruct (is_sync c f).
  - rewrite (sync_kinds _ _ H Hs), filter_In. cbn [andb orb In wanted cfg_of].
    destruct k; cbn; rewrite ?andb_true_r; split; intros Hx; try (apply (proj2 Hx));
      try discriminate; try (split; [tauto|exact Hx]).
    all: destruct Hx as [Hx _]; decompose [or] Hx; try discriminate; contradiction.
  - rewrite (plain_kinds _ _ H Hs), filter_In. cbn [andb orb In wanted cfg_of].
    destruct k; cbn; rewrite ?(andb_comm (needs_predicate c f));
      split; intros Hx; try (apply (proj2 Hx));
      try discriminate; try (split; [tauto|exact Hx]).
    all: destruct Hx as [Hx _]; decompose [or] Hx; try discriminate; contradiction.
Qed.
Lemma emitted_once : forall c f l, field_methods c f = GOk l -> NoDup (map m_kind l).
Proof.
  intros c f l H. destruct (f_skip f) eqn:Hs.
  { rewrite (skip_no_methods c f Hs) in H. injection H as <-. constructor. }
  unfold field_methods in H. destruct (is_sync c f).
  - rewrite (sync_kinds _ _ H Hs). apply NoDup_filter.
    repeat constructor; cbn; intuition discriminate.
  - rewrite (plain_kinds _ _ H Hs). apply NoDup_filter.
    repeat constructor; cbn; intuition discriminate.
Qed.
Lemma NoDup_map_map : forall {A B C} (f : A -> B) (g : A -> C) l, NoDup (map f l) ->
  (forall x y, In x l -> In y l -> f x <> f y -> g x <> g y) -> NoDup (map g l).
Proof.
  intros A B C f g l. induction l as [|a l IH]; cbn; intros H Hi; [constructor|].
  inversion_clear H. constructor; [|apply IH; auto]. intros Hin. apply in_map_iff in Hin.
  destruct Hin as (b & E & Hb). assert (f a <> f b).
  { intros Ef. apply H0. rewrite Ef. apply in_map, Hb. }
  apply (Hi a b); auto.
Qed.
Lemma emitted_names : forall c f l, field_methods c f = GOk l ->
  (forall k, given_name (field_arg f k) = None /\ given_name (struct_arg (c_args c) k) = None) ->
  NoDup (map m_name l).
Proof.
  intros c f l H Hn. destruct (f_skip f) eqn:Hs.
  { rewrite (skip_no_methods c f Hs) in H. injection H as <-. constructor. }
  apply (NoDup_map_map m_kind m_name l (emitted_once c f l H)). intros x y Hx Hy Hk.
  destruct (field_decls c f l x H Hx) as (-> & _ & _ & Hwx).
  destruct (field_decls c f l y H Hy) as (-> & _ & _ & Hwy).
  apply (names_distinct_kinds c f (m_kind x) (m_kind y)); try apply Hn; auto;
    unfold struct_kinds; cbn [In]; [destruct (m_kind x)|destruct (m_kind y)]; try discriminate; tauto.
Qed.
