(** What the pieces of a whole struct are (proofs for HygieneModel.v). *)
From Coq Require Import List Bool String.
From Verif Require Import ArgsModel CtxModel RustAst CommonGen PlainGen SyncGen StructGen CopyModel NameModel ItemModel
  BuilderProofs HygieneSpec HygieneModel HygieneWhen HygieneProofs HygieneField.
Import ListNotations.
Open Scope string_scope.
Open Scope list_scope.

Section Struct.
Variable c : sctx.
Variable w : surroundings.

Lemma says_made l : incl l (made c) -> all_tame c w (say [] Generated l).
Proof.
  intros I p J. apply in_map_iff in J. destruct J as [n [<- J]]. simpl. split; [apply incl_nil_l|].
  right. split; [constructor; auto|intros []].
Qed.
Lemma says_struct : all_tame c w (say [] Generated (struct_name c)).
Proof. apply says_made. unfold made. apply incl_appl, incl_refl. Qed.
Lemma says_builder : all_tame c w (say [] Generated (builder_name c)).
Proof. apply says_made. unfold made. apply incl_appr, incl_appl, incl_refl. Qed.
Lemma says_shadow : all_tame c w (say [] Generated (shadow_name c)).
Proof. apply says_made. unfold made. apply incl_appr, incl_appr, incl_refl. Qed.
Lemma asked n m : asks c n m -> tame c w (Says [] n m).
Proof. intro A. simpl. split; [apply incl_nil_l|]. right. split; [exact A|intros []]. Qed.

Lemma gen_cons g syn m ms : gen_tame c w g syn (GOk [m]) -> gen_tame c w g syn (GOk ms) -> gen_tame c w g syn (GOk (m :: ms)).
Proof.
  unfold gen_tame. intros A B l E. injection E as <-. simpl. apply tame_app; [|exact (B ms eq_refl)].
  specialize (A [m] eq_refl). simpl in A. rewrite app_nil_r in A. exact A.
Qed.
Lemma gen_app g syn a b : gen_tame c w g syn (GOk a) -> gen_tame c w g syn (GOk b) -> gen_tame c w g syn (GOk (a ++ b)).
Proof.
  unfold gen_tame. intros A B l E. injection E as <-. rewrite flat_map_app. apply tame_app; [exact (A a eq_refl)|exact (B b eq_refl)].
Qed.
Lemma gen_ok g syn r l : gen_tame c w g syn r -> r = GOk l -> gen_tame c w g syn (GOk l).
Proof. intros A ->. exact A. Qed.

Lemma methods_tame f ms : In f (all_fields c) -> field_methods c f = GOk ms ->
  gen_tame c w (cfg_of c f) (is_sync c f) (GOk ms).
Proof.
  intros I E. unfold field_methods in E.
  destruct (f_is_skipped f) eqn:K.
  { assert (ms = []) as ->.
    { destruct (is_sync c f); [unfold sync_methods in E|unfold plain_methods in E]; simpl in E; rewrite K in E; congruence. }
    intros l J. injection J as <-. apply tame_nil. }
  assert (M : has_methods c f) by (split; assumption).
  assert (G : cfg_of c f = cfg_of c f) by reflexivity.
  destruct (is_sync c f) eqn:Y.
  - unfold sync_methods, gbind in E. 
    replace (g_skip (cfg_of c f)) with false in E by (symmetry; exact K).
    destruct (sync_accessor _) eqn:E1; try discriminate E. destruct (sync_accessor_mut _) eqn:E2; try discriminate E.
    destruct (sync_reader _) eqn:E3; try discriminate E. destruct (sync_writer _) eqn:E4; try discriminate E.
    destruct (sync_setter _) eqn:E5; try discriminate E. destruct (sync_clearer _) eqn:E6; try discriminate E.
    destruct (sync_predicate _) eqn:E7; try discriminate E.
    destruct (if g_lazy _ && _ then _ else _); try discriminate E. injection E as <-.
    repeat apply gen_app.
    + eapply gen_ok; [|exact E1]. eapply sync_accessor_tame; eauto.
    + eapply gen_ok; [|exact E2]. eapply sync_accessor_mut_tame; eauto.
    + eapply gen_ok; [|exact E3]. eapply sync_reader_tame; eauto.
    + eapply gen_ok; [|exact E4]. eapply sync_writer_tame; eauto.
    + eapply gen_ok; [|exact E5]. eapply sync_setter_tame; eauto.
    + eapply gen_ok; [|exact E6]. eapply sync_clearer_tame; eauto.
    + eapply gen_ok; [|exact E7]. eapply sync_predicate_tame; eauto.
  - unfold plain_methods, gbind in E. 
    replace (g_skip (cfg_of c f)) with false in E by (symmetry; exact K).
    destruct (plain_accessor _) eqn:E1; try discriminate E. destruct (plain_accessor_mut _) eqn:E2; try discriminate E.
    destruct (plain_setter _) eqn:E5; try discriminate E. destruct (plain_clearer _) eqn:E6; try discriminate E.
    destruct (plain_predicate _) eqn:E7; try discriminate E. injection E as <-.
    repeat apply gen_app.
    + eapply gen_ok; [|exact E1]. eapply plain_accessor_tame; eauto.
    + eapply gen_ok; [|exact E2]. eapply plain_accessor_mut_tame; eauto.
    + eapply gen_ok; [|exact E5]. eapply plain_setter_tame; eauto.
    + eapply gen_ok; [|exact E6]. eapply plain_clearer_tame; eauto.
    + eapply gen_ok; [|exact E7]. eapply plain_predicate_tame; eauto.
Qed.
Lemma field_tame f : In f (all_fields c) -> all_tame c w (field_pieces c w f).
Proof.
  intro I. unfold field_pieces. destruct (field_methods c f) as [ms|m|m] eqn:E; [|apply tame_nil|apply tame_nil].
  apply tame_app; [exact (methods_tame f ms I E ms eq_refl)|].
  unfold wrapped. destruct (_ && _ && _ && _) eqn:W; [|apply tame_nil].
  apply andb_prop in W. destruct W as [W A]. apply andb_prop in W. destruct W as [W L]. apply andb_prop in W. destruct W as [Y K].
  eapply wrapper_tame; eauto. split; [exact I|]. destruct (f_is_skipped f); [discriminate K|reflexivity].
Qed.
Lemma decl_tame f : all_tame c w (decl_pieces c w f).
Proof.
  unfold decl_pieces, field_type. assert (R : forall l, all_tame c w (repeat_ [] l)) by apply tame_repeat_nil.
  assert (T : tame c w (Says [] (Types, c_ident c) Generated)) by apply asked, struct_said.
  destruct (is_sync c f).
  - unfold sync_type, gbind, wrapper_type_ok, maybe_optional, maybe_locked.
    destruct (g_skip (cfg_of c f)), (g_lazy (cfg_of c f)), (g_fallible (cfg_of c f)), (g_error_known (cfg_of c f)), (g_lock (cfg_of c f)),
      (g_optional (cfg_of c f)); cbn -[cfg_of];
      repeat match goal with
      | |- all_tame _ _ [] => apply tame_nil
      | |- all_tame _ _ (_ :: _) => apply tame_cons; [exact T|]
      | |- all_tame _ _ (_ ++ _) => apply tame_app
      | |- all_tame _ _ (repeat_ _ _) => apply R
      end.
  - unfold plain_type. destruct (g_skip (cfg_of c f)), (g_lazy (cfg_of c f)), (g_inner_mut (cfg_of c f)), (g_optional (cfg_of c f));
      cbn -[cfg_of]; apply R.
Qed.
Lemma me_tame : all_tame c w (me_pieces c).
Proof.
  unfold me_pieces, me. destruct (rc c); [|apply tame_nil]. apply tame_cons; [right; unfold locals; simpl; auto 20|].
  apply tame_cons; [|apply tame_nil]. apply bound_piece; [|left; reflexivity].
  apply vars_cons; [unfold binders, reserved_inside, locals; simpl; auto 20|apply vars_nil].
Qed.
Lemma me_vars : vars (me c).
Proof.
  unfold me. destruct (rc c); [|apply vars_nil]. apply vars_cons; [unfold binders, reserved_inside, locals; simpl; auto 20|apply vars_nil].
Qed.
Lemma default_impl_tame : all_tame c w (default_pieces c w).
Proof.
  unfold default_pieces, has_default_impl. destruct (needs_default c) eqn:N; [|apply tame_nil].
  destruct (all_fields c) as [|f l] eqn:F; [apply tame_nil|]. cbn [andb]. rewrite <- F.
  apply tame_cons; [apply asked, asks_default; [exact N|rewrite F; discriminate]|].
  apply tame_app; [apply says_struct|]. apply tame_flat. intros x _.
  unfold value_pieces, field_default.
  assert (D : holds c w (cfg_of c x) []) by (intros _ n _ []).
  destruct (is_sync c x).
  - destruct (sync_default_wrap _) eqn:E; try apply tame_nil. exact (sync_default_tame c w _ [] _ vars_nil D E).
  - destruct (plain_default_wrap _) eqn:E; try apply tame_nil. exact (plain_default_tame c w _ [] _ vars_nil D E).
Qed.
Lemma copy_tame : all_tame c w (copy_pieces c w).
Proof.
  unfold copy_pieces. destruct (filter _ _) as [|f l] eqn:F; [apply tame_nil|].
  apply tame_cons.
  - assert (I : In f (filter (fun f => needs_accessor c f && is_copy c f) (all_fields c))) by (rewrite F; left; reflexivity).
    apply filter_In in I. destruct I as [I K]. apply andb_prop in K. destruct K. apply asked. eapply asks_copy; eassumption.
  - apply tame_flat. intros x _. apply tame_repeat_nil.
Qed.
Lemma input_has f : In f (builder_input c) <-> has_methods c f.
Proof.
  unfold builder_input, has_methods. rewrite filter_In. destruct (f_is_skipped f); simpl; intuition congruence.
Qed.
Lemma builder_tame : all_tame c w (builder_pieces c w).
Proof.
  unfold builder_pieces. destruct (needs_builder_struct c) eqn:N; [|apply tame_nil].
  apply tame_app; [apply says_builder|].
  apply tame_app; [destruct (rc c); [apply says_struct|apply tame_nil]|].
  apply tame_app; [apply tame_flat; intros x _; apply tame_repeat_nil|].
  apply tame_app; [apply tame_flat; intros x I; apply tame_cons; [|apply tame_nil]; apply asked; eapply asks_none;
    [exact N|apply input_has; exact I]|].
  apply tame_app.
  { apply tame_flat. intros x I. destruct (field_builder (cfg_of c x)) eqn:E; [|apply tame_nil].
    eapply field_builder_tame; [reflexivity|apply input_has; exact I|exact N|exact E]. }
  apply tame_app; [apply tame_cons; [apply asked, asks_ok; exact N|apply tame_nil]|].
  apply tame_app; [apply says_struct|]. apply tame_app; [apply me_tame|].
  apply tame_flat. intros x I. apply input_has in I. unfold value_pieces, field_build_value.
  assert (D : holds c w (cfg_of c x) (me c)).
  { intros D n J K. unfold me, rc in K. destruct (s_is_ref_counted (c_args c)) eqn:R; [|destruct K].
    destruct K as [<-|[]]. eapply covers_build; eauto. }
  destruct (is_sync c x).
  - destruct (sync_builder_value _) eqn:E; try apply tame_nil. exact (sync_build_tame c w _ _ _ me_vars D E).
  - destruct (plain_builder_value _) eqn:E; try apply tame_nil. exact (plain_build_tame c w _ _ _ me_vars D E).
Qed.
Lemma serde_tame : all_tame c w (serde_pieces c w).
Proof.
  unfold serde_pieces. destruct (s_is_serde (c_args c)) eqn:S; [|apply tame_nil].
  repeat apply tame_app.
  - destruct (s_needs_serialize (c_args c)) eqn:N; [|apply tame_nil]. apply tame_cons; [|apply tame_nil].
    apply asked, asks_serialize; assumption.
  - destruct (s_needs_deserialize (c_args c)) eqn:N; [|apply tame_nil]. apply tame_cons; [|apply tame_nil].
    apply asked, asks_deserialize; assumption.
  - apply says_shadow.
  - apply tame_flat. intros x _. apply tame_repeat_nil.
  - destruct (needs_default c); [|apply tame_nil]. apply tame_flat. intros x _. exact (shadow_default_tame c w (cfg_of c x)).
  - unfold from_pieces, from_shadow_emitted. rewrite S.
    destruct (s_needs_deserialize (c_args c)) eqn:N; [|apply tame_nil]. cbn [andb].
    apply tame_app; [apply says_shadow|]. apply tame_app; [apply says_struct|].
    apply tame_app; [apply tame_cons; [right; unfold locals; simpl; auto 20|apply tame_nil]|].
    apply tame_flat. intros x I. apply filter_In in I. destruct I as [I K]. apply andb_prop in K. destruct K as [K L].
    unfold value_pieces, field_from_shadow.
    assert (V : vars (under "__shadow" [])).
    { apply vars_cons; [unfold binders, reserved_inside, locals; simpl; auto 20|apply vars_nil]. }
    destruct (is_sync c x) eqn:Y.
    + destruct (sync_from_shadow _) eqn:E; try apply tame_nil.
      refine (sync_document_tame c w _ _ _ V _ E). left. reflexivity.
    + destruct (plain_from_shadow _) eqn:E; try apply tame_nil.
      refine (plain_document_tame c w _ _ _ V _ _ E); [left; reflexivity|].
      intros O D n J [<-|[]]. eapply covers_document; eauto. simpl in O. rewrite orb_comm. exact O.
  - unfold into_pieces, into_shadow_emitted. rewrite S.
    destruct (s_needs_serialize (c_args c)) eqn:N; [|apply tame_nil]. cbn [andb].
    assert (V : vars (under "__me" [])).
    { apply vars_cons; [unfold binders, reserved_inside, locals; simpl; auto 20|apply vars_nil]. }
    assert (P : tame c w (Says (under "__me" []) (Values, "__me") Bound)).
    { apply bound_piece; [exact V|left; reflexivity]. }
    apply tame_app; [apply says_shadow|]. apply tame_app; [apply says_struct|].
    apply tame_app; [apply tame_cons; [right; unfold locals; simpl; auto 20|apply tame_nil]|].
    apply tame_app; apply tame_flat; intros x _.
    + unfold field_lazy_init. destruct (is_sync c x); cbn; repeat apply tame_cons; try exact P; apply tame_nil.
    + unfold field_from_struct, sync_from_struct, plain_from_struct.
      destruct (is_sync c x); destruct (_ || _); cbn; repeat apply tame_cons; try exact P; apply tame_nil.
Qed.

Theorem pieces_tame : all_tame c w (pieces c w).
Proof.
  unfold pieces. repeat apply tame_app.
  - apply tame_cons; [apply asked, asks_trait|apply says_struct].
  - apply tame_flat. intros x _. apply decl_tame.
  - apply tame_flat. intros x I. apply field_tame. exact I.
  - destruct (needs_builder_struct c); [apply says_builder|apply tame_nil].
  - destruct (needs_default c); [apply me_tame|apply tame_nil].
  - apply default_impl_tame.
  - apply copy_tame.
  - apply builder_tame.
  - apply serde_tame.
Qed.
End Struct.
