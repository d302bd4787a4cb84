(** When every piece means what it should (proofs for HygieneModel.v). *)
From Coq Require Import List Bool String.
From Verif Require Import ArgsModel CtxModel RustAst CommonGen PlainGen SyncGen StructGen CopyModel NameModel ItemModel
  MacroModel MacroProofs HygieneSpec HygieneModel HygieneWhen HygieneProofs HygieneStruct HygieneConverse.
Import ListNotations.
Open Scope string_scope.
Open Scope list_scope.

(** ** The macro accepts the struct *)
Section Accepted.
Variable path assignment : string -> bool.
Variable c : sctx.
Hypothesis E : expand path assignment c = GOk [].

Lemma step_ok n r : In (n, r) (steps path assignment c) -> succeeds r = true.
Proof.
  intro I. destruct (run_ok _ _ E n r I) as [Q F]. destruct r as [a|m|m]; [reflexivity|destruct (F m eq_refl)|destruct (Q m eq_refl)].
Qed.
Lemma sim_succeeds {A} (r r' : gres A) : sim r r' -> succeeds r = true -> exists a, r' = GOk a.
Proof. intros [->|[m ->]] S; [|discriminate]. destruct r'; try discriminate. eauto. Qed.
Lemma accepted_methods f : In f (all_fields c) -> exists ms, field_methods c f = GOk ms.
Proof.
  intro I. pose proof (step_ok _ _ (in_prepare path assignment c f I)) as S. apply prepare_needs in S.
  eapply sim_succeeds; [apply methods_step_sim|]. apply S.
Qed.
Lemma accepted_build : needs_builder_struct c = true -> forall f, has_methods c f -> exists e, field_build_value c f = GOk e.
Proof.
  intros N f [I K]. pose proof (step_ok _ _ (in_prepare path assignment c f I)) as S. apply prepare_needs in S.
  eapply sim_succeeds; [apply build_step_sim|].
  assert (R : reaches_builder c f = true).
  { unfold reaches_builder. destruct S as [S T]. rewrite K, S, T. reflexivity. }
  pose proof (step_ok _ _ (in_build path assignment c f N I R)) as B. destruct (build_step c f); [reflexivity|discriminate B|discriminate B].
Qed.
End Accepted.

Section Main.
Variable c : sctx.
Variable w : surroundings.
Notation mn := (mean (HygieneModel.made c) w).

Lemma mean_outside b n : ~ In n b -> mn b n = mn [] n.
Proof. intro N. unfold mean. rewrite (proj2 (among_not n b) N). reflexivity. Qed.
Lemma mean_bound b n : In n b -> mn b n = Bound.
Proof. intro I. unfold mean. rewrite (proj2 (among_In n b) I). reflexivity. Qed.
Lemma mean_not_bound n : mn [] n <> Bound.
Proof.
  unfold mean. change (among n []) with false. cbv iota. destruct (among n (w_params w)); [discriminate|]. destruct (among n (w_items w)); [discriminate|].
  destruct (among n (HygieneModel.made c)); [discriminate|].
  destruct (among n traits), (among n (w_globs w)), (among n std); discriminate.
Qed.
Lemma asks_not_bound n m : asks c n m -> m <> Bound.
Proof. intros []; discriminate. Qed.

Definition all_sound : Prop := forall p, In p (pieces c w) -> sound (HygieneModel.made c) w p.

Lemma sound_if :
  known_lifetimes w -> free_locals w ->
  (forall n m, asks c n m -> mn [] n = m) ->
  (forall n, opens c n -> ~ In n (w_params w) /\ ~ In n (w_constants w)) ->
  (forall n, ~ covers c w n) -> all_sound.
Proof.
  intros L F A O C p I. pose proof (pieces_tame c w p I) as T. destruct p as [b n m|b n|n]; simpl in T |- *.
  - destruct T as [_ [[-> J]|[K J]]]; [apply mean_bound; exact J|]. rewrite (mean_outside b n J). auto.
  - destruct T as [_ T]. apply mean_outside. intro J. destruct (T J) as [K|[K [N Q]]]; [exact (C n K)|].
    destruct (L n K Q) as [P|P]; [exact (proj1 (O n N) P)|]. subst n. inversion N.
  - destruct T as [N|N]; auto.
Qed.
Lemma sound_only :
  (forall f, In f (all_fields c) -> exists ms, field_methods c f = GOk ms) ->
  (needs_builder_struct c = true -> forall f, has_methods c f -> exists e, field_build_value c f = GOk e) ->
  all_sound ->
  (forall n m, asks c n m -> mn [] n = m) /\
  (forall n, opens c n -> ~ In n (w_params w) /\ ~ In n (w_constants w)) /\
  (forall n, ~ covers c w n).
Proof.
  intros OK BUILT S. split; [|split].
  - intros n m A. destruct (asks_said c w OK n m A) as [p [I [b ->]]]. pose proof (S _ I) as X. simpl in X.
    destruct (among n b) eqn:J.
    + apply among_In in J. rewrite mean_bound in X by exact J. destruct (asks_not_bound _ _ A (eq_sym X)).
    + apply among_not in J. rewrite mean_outside in X by exact J. exact X.
  - intros n O. destruct (opens_bound c w OK n O) as [p [I ->]]. exact (S _ I).
  - intros n C. destruct (covers_hidden c w OK BUILT n C) as [p [I [b [-> J]]]]. pose proof (S _ I) as X. simpl in X.
    rewrite mean_bound in X by exact J. exact (mean_not_bound n (eq_sym X)).
Qed.

Lemma opens_inside n : opens c n -> In n reserved_inside.
Proof. intros []; unfold reserved_inside; simpl; auto. Qed.
Lemma covers_inside n : covers c w n -> In n reserved_inside /\ exists f, In n (w_type w f) \/ In n (w_default w f).
Proof. intros []; (split; [unfold reserved_inside, locals; simpl; auto 20|eauto]). Qed.

Lemma alone_sound : leaves_alone c w -> all_sound.
Proof.
  intros [R M P W S] p I. pose proof (pieces_tame c w p I) as T. destruct p as [b n m|b n|n]; simpl in T |- *.
  - destruct T as [_ [[-> J]|[K J]]]; [apply mean_bound; exact J|]. rewrite (mean_outside b n J). clear J I.
    unfold mean. change (among n []) with false. cbv iota.
    assert (Q : In n reserved -> among n (w_params w) = false /\ among n (w_items w) = false /\
      among n (HygieneModel.made c) = false /\ among n (w_globs w) = false).
    { intro Q. destruct (R n Q) as (?&?&?&?). rewrite !among_not. auto. }
    destruct K; try (destruct Q as (->&->&->&->); [unfold reserved; simpl; auto 20|reflexivity]).
    + destruct (M n H) as [X Y]. rewrite (proj2 (among_not _ _) X), (proj2 (among_not _ _) Y), (proj2 (among_In _ _) H). reflexivity.
    + destruct (S _ H (or_introl eq_refl)) as [X Y]. rewrite (proj2 (among_not _ _) Y), (proj2 (among_In _ _) X). reflexivity.
    + destruct (S _ H (or_intror eq_refl)) as [X Y]. rewrite (proj2 (among_not _ _) Y), (proj2 (among_In _ _) X). reflexivity.
  - destruct T as [B T]. apply mean_outside. intro J. destruct (W n (B n J)) as [X Y].
    destruct (T J) as [K|[_ [_ [[f K]|K]]]].
    + destruct (covers_inside n K) as [_ [f [Z|Z]]]; [exact (proj1 (X f) Z)|exact (proj2 (X f) Z)].
    + exact (proj1 (X f) K).
    + exact (Y K).
  - destruct T as [N|N]; apply P; [apply opens_inside; exact N|unfold reserved_inside; rewrite in_app_iff; auto].
Qed.

Lemma trait_taken : In (Types, "FXStruct") (w_items w) ->
  exists p, In p (pieces c w) /\ ~ sound (HygieneModel.made c) w p.
Proof.
  intro I. exists (Says [] (Types, "FXStruct") Imported). split; [left; reflexivity|]. simpl. unfold mean.
  change (among (Types, "FXStruct") []) with false. cbv iota.
  destruct (among (Types, "FXStruct") (w_params w)); [discriminate|]. rewrite (proj2 (among_In _ _) I). discriminate.
Qed.

(** A name known everywhere is what it seems unless somebody takes it. *)
Lemma std_exact n : In n std -> (mn [] n = Std <->
  ~ In n (w_params w) /\ ~ In n (w_items w) /\ ~ In n (HygieneModel.made c) /\ ~ In n (w_globs w)).
Proof.
  intro I. unfold mean. change (among n []) with false. cbv iota.
  assert (T : among n traits = false).
  { apply among_not. intro J. simpl in I, J. repeat destruct I as [<-|I]; try contradiction; repeat destruct J as [J|J]; try discriminate J; contradiction. }
  rewrite <- !among_not, T, (proj2 (among_In _ _) I).
  destruct (among n (w_params w)), (among n (w_items w)), (among n (HygieneModel.made c)), (among n (w_globs w));
    split; intro H; try discriminate; try tauto; destruct H as (?&?&?&?); discriminate.
Qed.
End Main.

(** ** Deciding *)
Definition meaning_eqb (a b : meaning) : bool :=
  match a, b with
  | Bound, Bound | Param, Param | Users, Users | Generated, Generated | Imported, Imported | Std, Std | Unclear, Unclear => true
  | _, _ => false
  end.
Lemma meaning_eqb_eq a b : meaning_eqb a b = true <-> a = b.
Proof. destruct a, b; simpl; split; congruence. Qed.
Definition soundb (made : list name) (w : surroundings) (p : piece) : bool :=
  match p with
  | Says b n m => meaning_eqb (mean made w b n) m
  | Repeats b n => meaning_eqb (mean made w b n) (mean made w [] n)
  | Binds n => negb (among n (w_params w)) && negb (among n (w_constants w))
  end.
Lemma soundb_spec made w p : soundb made w p = true <-> sound made w p.
Proof.
  destruct p as [b n m|b n|n]; simpl; [apply meaning_eqb_eq|apply meaning_eqb_eq|].
  rewrite andb_true_iff, !negb_true_iff, !among_not. reflexivity.
Qed.
Lemma all_sound_dec c w : forallb (soundb (HygieneModel.made c) w) (pieces c w) = true <-> all_sound c w.
Proof.
  rewrite forallb_forall. unfold all_sound. split; intros H p I; apply soundb_spec; auto.
Qed.
Lemma not_all_sound c w : forallb (soundb (HygieneModel.made c) w) (pieces c w) = false -> ~ all_sound c w.
Proof. intros E H. apply all_sound_dec in H. congruence. Qed.
