(** Proofs for C80 and C81. *)
From Coq Require Import List Bool String Ascii.
From Verif Require Import ArgsModel CtxModel ArgsSpec TokenSpec ParseInput ParseModel ParseSpec ParseFacts ParseForms ParseDefault GrammarSpec GrammarProofs
  RustAst CommonGen PlainGen SyncGen StructGen CopyModel CodegenSpec CodegenStruct WrittenSpec WrittenProofs WrittenNames SignSpec SignProofs SignMethods SignTypes
  MadeModel MadeSpec.
Import ListNotations.
Open Scope string_scope.
Open Scope list_scope.

(** ** Defaults *)
Lemma gathered_fun l cs ds : gathered l cs -> gathered l ds -> cs = ds.
Proof.
  intros G. revert ds. induction G as [|l cs G IH|ts l cs ds A G IH]; intros es H; inversion H; subst; auto.
  f_equal; [eapply arguments_fun; eassumption|apply IH; assumption].
Qed.
Lemma w_defaulted ft x f : read_as ft x f -> (f_has_default_value f = true <-> defaulted x).
Proof.
  intros (A & i & v & t & a & E). destruct (default_read _ _ _ _ _ _ _ E) as (cs & G & D & N).
  pose proof (gathered_fun _ _ _ A G) as EQ. subst cs. unfold f_has_default_value, defaulted, defarg_is_true.
  assert (U : forall c r c' r', In c (so_args x) -> argument_for "default" c r -> In c' (so_args x) -> argument_for "default" c' r' -> r = r').
  { destruct (field_stored ft x f (conj A (ex_intro _ i (ex_intro _ v (ex_intro _ t (ex_intro _ a E)))))) as (seen & f0 & ST & _).
    intros c r c' r' I X I' X'. destruct (proj2 ST "default" c r eq_refl I X) as (m & E1 & <-).
    destruct (proj2 ST "default" c' r' eq_refl I' X') as (m' & E2 & <-). congruence. }
  destruct (f_default f) as [dv|] eqn:F.
  - destruct (proj1 (D dv) eq_refl) as (c & I & W).
    assert (R : exists r, argument_for "default" c r) by (destruct W; eauto). destruct R as (r & R).
    assert (GV : given_in "default" (so_args x)) by (exists c; split; [exact I|exists r; exact R]).
    destruct W as [c X|c d N1 X|c d g y s N1 X AR V|c d g y s N1 X AR V]; simpl; split; try discriminate; try (intros _; split; [exact GV|]);
      try reflexivity.
    + intros (c' & d' & g & y & I' & X' & _). discriminate (U _ _ _ _ I X I' X').
    + intros (c' & d' & g & y & I' & X' & AR). pose proof (U _ _ _ _ I X I' X') as Q. injection Q as <- <-.
      inversion AR.
    + intros (c' & d' & g' & y' & I' & X' & AR'). pose proof (U _ _ _ _ I X I' X') as Q. injection Q as <- <-.
      discriminate (arguments_fun _ _ _ AR AR').
    + intros [_ Z]. exfalso. apply Z. exists c, d, g, y. auto.
  - split; [discriminate|]. intros [(c & I & r & X) _]. destruct (N c r I X) as (dv & W).
    assert (Y : None = Some dv) by (apply D; exists c; auto). discriminate.
Qed.

Section Context.
  Variables (ft : features) (c : sctx) (ss : list (list tok)) (all : list source).
  Hypothesis HS : struct_as ft ss (c_args c).
  Hypothesis HF : Forall2 (read_as ft) all (c_input_fields c).
  Lemma w_rather_sync : is_rather_sync c = true <-> rather_sync ss all.
  Proof.
    assert (E : is_rather_sync c = obool_or (first_some (struct_list c ++ map f_is_sync (c_input_fields c))) false).
    { rewrite first_app. unfold is_rather_sync, s_is_sync, s_is_async, struct_list, s_needs_reader, s_needs_writer. simpl.
      destruct (s_mode_sync (c_args c)), (s_mode (c_args c)), (s_mode_async (c_args c)), (s_lock (c_args c)); simpl; try reflexivity.
      destruct (on_off (s_reader (c_args c))), (on_off (s_writer (c_args c))); reflexivity. }
    rewrite E. apply decide_first; [|apply no].
    apply Forall2_app; [apply (struct_votes ft c ss HS)|apply (field_votes ft c all HF)].
  Qed.
  Lemma s_default_word : heeds (word "default" ss) (s_needs_default (c_args c)).
  Proof.
    destruct (struct_stored _ _ _ HS) as (seen & ST & S). pose proof (sargs_of_inv _ _ S) as Q.
    apply (stored_word ss seen "default" _ ST eq_refl). unfold s_needs_default. tauto.
  Qed.
  Lemma s_no_new_word : heeds (word "no_new" ss) (s_no_new (c_args c)).
  Proof.
    destruct (struct_stored _ _ _ HS) as (seen & ST & S). pose proof (sargs_of_inv _ _ S) as Q.
    apply (stored_word ss seen "no_new" _ ST eq_refl). tauto.
  Qed.
  Lemma w_lazy_there x f : read_as ft x f -> (obool_or (f_is_lazy f) false = true <-> lazy_there x).
  Proof.
    intros R. unfold lazy_there, f_is_lazy, unless_skip. rewrite <- (f_skipped ft x f R). destruct (f_skip f).
    - simpl. split; [discriminate|]. intros [N _]. contradiction (N eq_refl).
    - pose proof (f_bare ft x f R "lazy" f_lazy ltac:(simpl; tauto)) as H. unfold heeds in H.
      revert H. generalize (fst (field_word "lazy" x)), (snd (field_word "lazy" x)). intros P Q H.
      destruct (on_off (f_lazy f)) as [[]|]; simpl; intuition discriminate.
  Qed.
  Theorem w_default : needs_default c = true <-> with_default ss all.
  Proof.
    unfold needs_default, with_default, s_needs_new.
    pose proof s_default_word as D.
    pose proof s_no_new_word as NN. pose proof (on_given "no_new" ss) as G.
    assert (F : existsb (fun f => f_has_default_value f || (is_rather_sync c && obool_or (f_is_lazy f) false)) (c_input_fields c) = true <->
                exists y, In y all /\ (defaulted y \/ (rather_sync ss all /\ lazy_there y))).
    { pose proof w_rather_sync as RS. revert RS HF. generalize (is_rather_sync c), (rather_sync ss all), (c_input_fields c). clear D NN G.
      intros b P fs RS F. induction F as [|y g ys gs R F IH]; simpl; [split; [discriminate|intros (y & [] & _)]|].
      rewrite !orb_true_iff, andb_true_iff, IH, RS, (w_defaulted ft y g R), (w_lazy_there y g R). split.
      - intros [Y|(z & I & Z)]; [exists y|exists z]; auto.
      - intros (z & [<-|I] & Z); [auto|right; exists z; auto]. }
    unfold heeds, word in *. cbn [fst snd decide] in *. rewrite <- F.
    destruct (s_needs_default (c_args c)) as [[]|]; [intuition|intuition discriminate|].
    rewrite orb_true_iff, andb_true_iff, negb_true_iff. cbn [unwrap_or].
    destruct (s_no_new (c_args c)) as [[]|]; cbn [unwrap_or]; intuition discriminate.
  Qed.
  Theorem w_new o : constructor ss all o <-> o = new_fn c.
  Proof.
    pose proof w_default as W. unfold new_fn, new_emitted, s_needs_new.
    pose proof s_default_word as D.
    pose proof s_no_new_word as NN. pose proof (on_given "no_new" ss) as G.
    assert (DD : needs_default c = true -> unwrap_or (s_needs_default (c_args c)) true = true).
    { unfold needs_default. destruct (s_needs_default (c_args c)); simpl; auto. }
    unfold heeds, word in *. cbn [fst snd] in *.
    assert (NO : unwrap_or (s_no_new (c_args c)) false = true <-> on_in "no_new" ss).
    { destruct (s_no_new (c_args c)) as [[]|]; simpl; intuition discriminate. }
    destruct (needs_default c).
    - rewrite DD by reflexivity. rewrite andb_true_r. destruct (unwrap_or (s_no_new (c_args c)) false); simpl.
      + split; [intros X; destruct X; intuition congruence|]. intros ->. apply hidden_constructor; tauto.
      + split; [intros X; destruct X; intuition congruence|]. intros ->. apply public_constructor; intuition congruence.
    - split; [intros X; destruct X; intuition congruence|]. intros ->. apply no_constructor. intuition congruence.
  Qed.
  Lemma w_rc : s_is_ref_counted (c_args c) = true <-> on_in "rc" ss.
  Proof.
    unfold s_is_ref_counted. pose proof (s_word ft c ss HS "rc" (fun s => on_off (s_rc s)) ltac:(simpl; tauto)) as D.
    pose proof (on_given "rc" ss) as G. unfold heeds, word in *. cbn [fst snd] in *.
    destruct (on_off (s_rc (c_args c))) as [[]|]; simpl; intuition discriminate.
  Qed.
  Lemma rc_field_there : s_is_ref_counted (c_args c) = true -> exists n, myself_field c = Some n.
  Proof. unfold s_is_ref_counted, myself_field, myself_name. destruct (s_rc (c_args c)); [simpl; eauto|discriminate]. Qed.
  Theorem w_default_impl : has_default_impl c = true <-> with_default ss all /\ (all <> [] \/ on_in "rc" ss).
  Proof.
    unfold has_default_impl. rewrite andb_true_iff, w_default, <- w_rc. apply and_iff_compat_l.
    unfold all_fields, extra_fields. destruct (s_is_ref_counted (c_args c)) eqn:R.
    - destruct (rc_field_there R) as (n & ->). simpl. tauto.
    - simpl. destruct HF; simpl; intuition discriminate.
  Qed.
  Theorem w_myself : s_is_ref_counted (c_args c) = true -> forall t, counted_name ss t <-> myself_name c = Some t.
  Proof.
    intros RC t. destruct (struct_stored _ _ _ HS) as (seen & ST & S). pose proof (sargs_of_inv _ _ S) as Q.
    assert (O : opt_arg seen "rc" helper_arg = Some (s_rc (c_args c))) by tauto. clear Q.
    unfold s_is_ref_counted, myself_name in *. destruct (s_rc (c_args c)) as [h|] eqn:E; [|discriminate].
    assert (N : forall u, helper_name_of h = Some u <-> named "rc" u ss).
    { intros u. unfold opt_arg in O. destruct (assoc "rc" seen) as [m|] eqn:A; [|discriminate].
      destruct (helper_arg m) as [h'|] eqn:H; [|discriminate]. injection O as ->.
      destruct (proj1 ST _ _ A) as (MO & d & I & X). rewrite value_of_helper, (helper_calls m h MO H u). split.
      - intros W. exists d, (rest m). auto.
      - intros (d' & r & I' & X' & W). destruct (proj2 ST "rc" d' r eq_refl I' X') as (m' & A' & <-). congruence. }
    unfold counted_name, or_usual. destruct (helper_name_of h) as [u|]; simpl.
    - assert (NU : named "rc" u ss) by (apply N; reflexivity). split.
      + intros [W|[W _]]; [apply N in W; exact W|]. contradiction (W u NU).
      + intros W. injection W as <-. left. exact NU.
    - split.
      + intros [W|[_ ->]]; [apply N in W; discriminate|reflexivity].
      + intros W. injection W as <-. right. split; [|reflexivity]. intros u W. apply N in W. discriminate.
  Qed.

  (** *** One field *)
  Section OneField.
    Variables (x : source) (f : field).
    Hypothesis R : read_as ft x f.
    Let VS := struct_voted ft ss _ HS.
    Let VF := field_voted ft x f R.
    Lemma w_takes_builder : needs_builder c f = true <-> decide [word "builder" (so_args x)] (on_in "builder" ss /\ ~ opt_in ss).
    Proof.
      clear VS VF. unfold needs_builder.
      pose proof (f_plain_word ft x f R "builder" f_needs_builder ltac:(simpl; tauto)) as W.
      pose proof (s_word ft c ss HS "builder" s_needs_builder ltac:(simpl; tauto)) as V.
      pose proof (on_given "builder" ss) as G. pose proof (w_opt_in ft c ss HS) as O.
      unfold heeds, word in *. cbn [fst snd] in *. simpl.
      destruct (f_needs_builder f) as [[]|]; simpl; try (intuition discriminate).
      destruct (s_needs_builder (c_args c)) as [[]|]; simpl; [|intuition discriminate|intuition discriminate].
      rewrite negb_true_iff, <- not_true_iff_false, O. tauto.
    Qed.
    Lemma w_required : is_builder_required c f = true <->
      decide [within "builder" (word "required") (so_args x); within "builder" (word "required") ss] False.
    Proof.
      unfold is_builder_required. rewrite first_or. apply decide_first; [|apply no].
      constructor; [apply (v_required _ _ _ _ _ _ _ _ _ VF)|]. constructor; [apply (v_required _ _ _ _ _ _ _ _ _ VS)|constructor].
    Qed.
    Lemma w_value_required : value_required (cfg_of c f) = true /\ f_skip f = false <-> demanded ss x.
    Proof.
      unfold value_required, demanded. simpl. rewrite <- (f_skipped ft x f R), <- w_required, <- w_takes_builder, <- (w_defaulted ft x f R),
        <- (w_lazy ft c ss HS x f R), <- (w_optional ft c ss HS x f R).
      rewrite orb_true_iff, andb_true_iff, negb_true_iff, !orb_false_iff, <- !not_true_iff_false. tauto.
    Qed.
    Lemma same_ident : NoDup (map f_ident (c_input_fields c)) -> In f (c_input_fields c) ->
      forall fs, (forall g, In g fs -> In g (all_fields c) /\ f_skip g = false) ->
      (In (f_ident f) (map f_ident fs) <-> In f fs).
    Proof.
      clear VS VF. intros D I fs H. split; [|apply in_map]. intros J. apply in_map_iff in J. destruct J as (g & J & G).
      destruct (H g G) as (GA & K). unfold all_fields in GA. apply in_app_or in GA. destruct GA as [GA|GA].
      - exfalso. unfold extra_fields in GA. destruct (s_is_ref_counted (c_args c)); [|destruct GA].
        destruct (myself_field c); [|destruct GA]. destruct GA as [<-|[]]. discriminate.
      - assert (E : g = f); [|subst g; exact G].
        revert D I GA J. clear. induction (c_input_fields c) as [|h l IH]; [intros _ []|]. simpl. intros D I G J.
        inversion D as [|h' l' N D']; subst. destruct I as [->|I], G as [->|G]; auto; exfalso; apply N.
        + rewrite <- J. apply in_map. exact G.
        + rewrite J. apply in_map. exact I.
    Qed.
  End OneField.
End Context.
