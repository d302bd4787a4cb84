(** Proofs for C82 and C83. *)
From Coq Require Import List Bool String Ascii.
From Verif Require Import ProxyTypes ArgsModel CtxModel ArgsSpec TokenSpec ParseInput ParseModel ParseSpec ParseFacts ParseForms ParseDefault GrammarSpec
  RustAst RustSem CommonGen PlainGen SyncGen StructGen CodegenSpec CodegenStruct FieldSpec FieldRun FieldStruct BuilderSpec BuilderModel BuilderProofs SerdeSpec SerdeModel SerdeProofs
  WrittenSpec WrittenProofs WrittenNames SignSpec SignProofs SignMethods SignTypes MadeSpec MadeProofs MadeSerde BehaveSpec BehaveModel.
Import ListNotations.
Open Scope string_scope.
Open Scope list_scope.

Lemma pick_mode_word m : pick_mode (mode_word m) = m.
Proof. destruct m; reflexivity. Qed.
Lemma settings_told c f : told_settings (facts_of (cfg_of c f) (is_sync c f)) = settings_of c f.
Proof. unfold told_settings, facts_of, settings_of. simpl. rewrite pick_mode_word. reflexivity. Qed.

Section Context.
  Variables (ft : features) (c : sctx) (ss : list (list tok)) (all : list source).
  Hypothesis HS : struct_as ft ss (c_args c).
  Hypothesis HF : Forall2 (read_as ft) all (c_input_fields c).
  Section OneField.
    Variables (x : source) (f : field).
    Hypothesis R : read_as ft x f.
    Lemma view_told q : facts_told ss all x q -> told_view q = view_of c f.
    Proof.
      intros Q. apply (w_facts ft c ss HS x f R all HF) in Q. subst q. unfold told_view, view_of. rewrite settings_told. reflexivity.
    Qed.
    Lemma works_told q k ms : facts_told ss all x q -> field_methods c f = GOk ms -> method_for ss all x k -> sound_call q k = true -> works c f k = true.
    Proof.
      intros Q M K S. apply (w_facts ft c ss HS x f R all HF) in Q. subst q. unfold sound_call in S. rewrite settings_told in S.
      pose proof (proj1 K) as NS. rewrite <- (f_skipped ft x f R), not_true_iff_false in NS.
      apply (w_methods ft c ss all HS HF x f R k ms M), (emitted_iff c f ms k NS M) in K. unfold works. rewrite K. exact S.
    Qed.
    (** A name denotes one method. *)
    Lemma find_named (ms : list mdecl) m : NoDup (map m_name ms) -> In m ms -> find (fun n => String.eqb (m_name n) (m_name m)) ms = Some m.
    Proof.
      induction ms as [|n ms IH]; simpl; [intros _ []|]. intros D I. inversion D as [|y l N D']; subst. destruct I as [->|I].
      - rewrite String.eqb_refl. reflexivity.
      - destruct (String.eqb_spec (m_name n) (m_name m)) as [E|E]; [|apply IH; assumption].
        exfalso. apply N. rewrite E. apply in_map, I.
    Qed.
    Theorem w_resolves ms a b : field_methods c f = GOk ms -> NoDup (map m_name ms) -> means ss all x (f_ident f) a b -> resolve ms a = Some b.
    Proof.
      intros M D W. destruct W as [k t n u K N| | |]; simpl; try reflexivity.
      apply (w_methods ft c ss all HS HF x f R k ms M) in K. apply in_map_iff in K. destruct K as (m & <- & I).
      apply (w_method_name ft c ss HS x f R ms m M I) in N. subst t. rewrite (find_named ms m D I). reflexivity.
    Qed.
    Lemma w_resolved ms a b : field_methods c f = GOk ms -> resolve ms a = Some b -> means ss all x (f_ident f) a b.
    Proof.
      intros M E. destruct a as [t n u| | |]; simpl in E; try (injection E as <-; constructor).
      destruct (find _ ms) as [m|] eqn:FD; [|discriminate]. injection E as <-. apply find_some in FD. destruct FD as [I N].
      apply String.eqb_eq in N. constructor.
      - apply (w_methods ft c ss all HS HF x f R (m_kind m) ms M). apply in_map, I.
      - apply (w_method_name ft c ss HS x f R ms m M I). symmetry. exact N.
    Qed.
    Theorem w_means ms a b : field_methods c f = GOk ms -> NoDup (map m_name ms) -> (means ss all x (f_ident f) a b <-> resolve ms a = Some b).
    Proof. intros M D. split; [apply w_resolves; assumption|apply w_resolved; assumption]. Qed.
    Lemma w_resolved_all ms p l : field_methods c f = GOk ms -> resolve_all ms p = Some l -> Forall2 (means ss all x (f_ident f)) p l.
    Proof.
      intros M. revert l. induction p as [|a p IH]; simpl; intros l; [intros E; injection E as <-; constructor|].
      destruct (resolve ms a) as [b|] eqn:A; [|discriminate]. destruct (resolve_all ms p) as [k|]; [|discriminate].
      intros E. injection E as <-. constructor; [apply (w_resolved ms a b M A)|apply IH; reflexivity].
    Qed.
    Lemma w_resolves_all ms p l : field_methods c f = GOk ms -> NoDup (map m_name ms) -> Forall2 (means ss all x (f_ident f)) p l -> resolve_all ms p = Some l.
    Proof.
      intros M D F. induction F as [|a b p l W F IH]; simpl; [reflexivity|]. rewrite (w_resolves ms a b M D W), IH. reflexivity.
    Qed.
    Lemma calls_told q ms p l : facts_told ss all x q -> field_methods c f = GOk ms -> Forall2 (means ss all x (f_ident f)) p l ->
      only_calls (sound_call q) l = true -> only_calls (works c f) l = true.
    Proof.
      intros Q M F. unfold only_calls. rewrite !forallb_forall. intros H b I. specialize (H b I).
      destruct b as [k n u| | |]; try reflexivity. assert (K : method_for ss all x k).
      { clear H. revert I. induction F as [|a b p l W F IH]; [intros []|]. intros [->|I]; [inversion W; assumption|apply IH; exact I]. }
      apply (works_told q k ms Q M K H).
    Qed.
    Theorem w_behaves : forall bld dflt user alive t ms q p l o w b os u,
      ~ skipped x -> field_type c f = GOk t -> field_methods c f = GOk ms -> NoDup (map m_name ms) ->
      (on_in "rc" ss -> alive = true) -> facts_told ss all x q ->
      Forall2 (means ss all x (f_ident f)) p l -> only_calls (sound_call q) l = true -> rep t o = Some w ->
      spec_run bld dflt (told_view q) l (mk_ust o [] b) = Some (os, u) ->
      exists iu, named_run bld (q_fallible q) alive dflt user ms p (fresh w b) = Some (os, iu) /\
        rep t (u_val u) = Some (RustSem.fld (i_st iu)) /\ RustSem.calls (i_st iu) = u_builds u /\ map fst (i_guards iu) = map gd_write (u_guards u).
    Proof.
      intros bld dflt user alive t ms q p l o w b os u NS T M D A Q F S W RUN.
      rewrite <- (f_skipped ft x f R), not_true_iff_false in NS. unfold named_run. rewrite (w_resolves_all ms p l M D F).
      rewrite (view_told q Q) in RUN. replace (q_fallible q) with (is_fallible c f)
        by (apply (w_facts ft c ss HS x f R all HF) in Q; subst q; reflexivity).
      apply (guards_refine bld dflt user alive c f t ms l o w b os u NS T M); auto.
      - rewrite (w_rc ft c ss HS). exact A.
      - exact (calls_told q ms p l Q M F S).
    Qed.
    (** Without kept guards nothing can go wrong: the answers are those of a bare cell. *)
    Theorem w_unkept : forall bld dflt user alive t ms q p l o w b,
      ~ skipped x -> field_type c f = GOk t -> field_methods c f = GOk ms -> NoDup (map m_name ms) ->
      (on_in "rc" ss -> alive = true) -> facts_told ss all x q ->
      Forall2 (means ss all x (f_ident f)) p l -> only_calls (sound_call q) l = true -> nothing_kept l = true ->
      forallb (sensible (told_view q)) l = true -> rep t o = Some w ->
      exists os o' b' iu,
        spec_run bld dflt (mk_view (v_shape (told_view q)) Direct true) l (mk_ust o [] b) = Some (os, mk_ust o' [] b') /\
        List.length os = List.length p /\
        named_run bld (q_fallible q) alive dflt user ms p (fresh w b) = Some (os, iu) /\
        rep t o' = Some (RustSem.fld (i_st iu)) /\ RustSem.calls (i_st iu) = b' /\ i_guards iu = [].
    Proof.
      intros bld dflt user alive t ms q p l o w b NS T M D A Q F S NK SE W.
      rewrite <- (f_skipped ft x f R), not_true_iff_false in NS. rewrite (view_told q Q) in *.
      assert (A' : s_is_ref_counted (c_args c) = true -> alive = true) by (rewrite (w_rc ft c ss HS); exact A).
      destruct (unkept_refines bld dflt user alive c f t ms l o w b NS T M A' (calls_told q ms p l Q M F S) NK SE W)
        as (os & o' & b' & iu & E1 & E2 & E3 & E4 & E5 & E6).
      exists os, o', b', iu. unfold named_run. rewrite (w_resolves_all ms p l M D F).
      replace (q_fallible q) with (is_fallible c f) by (apply (w_facts ft c ss HS x f R all HF) in Q; subst q; reflexivity).
      split; [exact E1|]. split; [|auto]. rewrite E2. clear -F. induction F; simpl; congruence.
    Qed.

    (** A call while guards are kept. *)
    Theorem w_conflicts : forall bld dflt user alive t ms q p l o w b os u name k n us,
      ~ skipped x -> field_type c f = GOk t -> field_methods c f = GOk ms -> NoDup (map m_name ms) ->
      (on_in "rc" ss -> alive = true) -> facts_told ss all x q -> hands_guards q = true ->
      Forall2 (means ss all x (f_ident f)) p l -> only_calls (sound_call q) l = true -> rep t o = Some w ->
      spec_run bld dflt (told_view q) l (mk_ust o [] b) = Some (os, u) ->
      method_for ss all x k -> name_for ss x (f_ident f) k name -> sound_call q k = true -> sensible (told_view q) (ACall k n us) = true ->
      exists iu, named_run bld (q_fallible q) alive dflt user ms p (fresh w b) = Some (os, iu) /\
        let act := named_act bld (q_fallible q) alive dflt user ms (NCall name n us) iu in
        match refusal q k (map fst (i_guards iu)) with
        | Some ob => act = Some (ob, iu)
        | None => exists ob iu', act = Some (ob, iu') /\ ob <> OWait /\ (q_lazy q = false -> exists an, ob = ORet an)
        end.
    Proof.
      intros bld dflt user alive t ms q p l o w b os u name k n us NS T M D A Q G F S W RUN K N SK SE.
      rewrite <- (f_skipped ft x f R), not_true_iff_false in NS.
      pose proof (works_told q k ms Q M K SK) as WK. pose proof (calls_told q ms p l Q M F S) as OC.
      assert (A' : s_is_ref_counted (c_args c) = true -> alive = true) by (rewrite (w_rc ft c ss HS); exact A).
      unfold named_run, named_act. rewrite (w_resolves_all ms p l M D F).
      rewrite (w_resolves ms (NCall name n us) (ACall k n us) M D (m_call _ _ _ _ k name n us K N)).
      rewrite (view_told q Q) in RUN, SE.
      apply (w_facts ft c ss HS x f R all HF) in Q. subst q. unfold hands_guards, refusal in *. cbn [q_sync q_lazy q_locked q_cell q_async q_fallible facts_of] in *.
      change (g_fallible (cfg_of c f)) with (is_fallible c f) in *; change (g_lazy (cfg_of c f)) with (is_lazy c f) in *; change (g_lock (cfg_of c f)) with (needs_lock c f) in *; change (g_inner_mut (cfg_of c f)) with (is_inner_mut c f) in *; change (g_async (cfg_of c f)) with (is_async c f) in *.
      destruct (is_sync c f) eqn:SY.
      - destruct (is_lazy c f) eqn:LZ.
        + destruct (lazy_guarded_runs bld dflt user alive c f t ms l o w b os u k n us SY LZ T M A' OC W RUN WK SE) as (iu & E1 & E2).
          exists iu. split; [exact E1|]. cbv zeta in *.
          destruct (lazy_conflicting (is_async c f) k (map fst (i_guards iu))); [exact E2|].
          destruct E2 as (ob & iu' & E2 & E3). exists ob, iu'. split; [exact E2|]. split; [exact E3|discriminate].
        + destruct (locked_guarded bld dflt user alive c f t ms l o w b os u k n us NS SY LZ G T M A' OC W RUN WK SE) as (iu & E1 & E2).
          exists iu. split; [exact E1|]. cbv zeta in *. destruct (conflicting k (map fst (i_guards iu))); [exact E2|].
          destruct E2 as (an & iu' & E2). exists (ORet an), iu'. split; [exact E2|]. split; [discriminate|eauto].
      - apply andb_true_iff in G. destruct G as [LZ G]. apply negb_true_iff in LZ.
        destruct (inner_mut_guarded bld dflt user alive c f t ms l o w b os u k n us NS SY LZ G T M A' OC W RUN WK SE) as (iu & E1 & E2).
        exists iu. split; [exact E1|]. cbv zeta in *. destruct (conflicting k (map fst (i_guards iu))); [exact E2|].
        destruct E2 as (an & iu' & E2). exists (ORet an), iu'. split; [exact E2|]. split; [discriminate|eauto].
    Qed.

    (** The text of a default. *)
    Lemma w_default_text t : default_text x t <-> exists s, default_value f = Some (t, s).
    Proof.
      destruct R as (A & i & v & ty & a & E). destruct (default_read _ _ _ _ _ _ _ E) as (cs & G & D & _).
      pose proof (gathered_fun _ _ _ A G) as EQ. subst cs. unfold default_text, default_value, f_has_default_value, defarg_is_true. split.
      - intros (c0 & s & I & FM). assert (K : f_default f = Some (mk_defarg false (Some t) s)) by (apply D; eauto).
        rewrite K. simpl. eauto.
      - intros (s & H). destruct (f_default f) as [[off val str]|] eqn:K; [|discriminate]. simpl in H. destruct off; [discriminate|].
        destruct val as [u|]; [|discriminate]. injection H as -> ->. destruct (proj1 (D _) eq_refl) as (c0 & I & FM). exists c0, s. auto.
    Qed.
    Lemma w_textless : textless x <-> default_value f = None.
    Proof.
      unfold textless. split.
      - intros H. destruct (default_value f) as [[t s]|] eqn:E; [|reflexivity]. exfalso. apply (H t), w_default_text. eauto.
      - intros H t K. apply w_default_text in K. destruct K as (s & K). congruence.
    Qed.
    Lemma has_setter_told : f_skip f = false -> (has_setter c f = true <-> settable ss x).
    Proof.
      intros NS. rewrite <- (w_builds ft c ss HS x f R). unfold has_setter, field_builder, f_is_skipped. rewrite NS. simpl.
      split.
      - intros H. split; [|reflexivity]. rewrite orb_comm in H. rewrite H. eauto.
      - intros [(m & H) _]. rewrite orb_comm. destruct (forced_builder f || needs_builder c f); [reflexivity|discriminate].
    Qed.
    Lemma w_falls_back dflt user : f_skip f = false -> forall o, falls_back dflt user ss x o <-> o = own_content dflt user c f.
    Proof.
      intros NS o. pose proof (w_lazy ft c ss HS x f R) as L. pose proof (w_optional ft c ss HS x f R) as O.
      pose proof (has_setter_told NS) as S. pose proof (w_defaulted ft x f R) as D. pose proof w_textless as T. unfold own_content. split.
      - intros W. destruct W as [t W|W1 W2|W1 W2 W3 W4|W1 W2 W3 W4 W5].
        + apply w_default_text in W. destruct W as (s & ->). reflexivity.
        + apply T in W1. rewrite W1. destruct (is_lazy c f), (is_optional c f); simpl; intuition congruence.
        + apply T in W1. rewrite W1. destruct (is_lazy c f), (is_optional c f), (f_has_default_value f), (has_setter c f); simpl; intuition congruence.
        + apply T in W1. rewrite W1. destruct (is_lazy c f), (is_optional c f), (f_has_default_value f), (has_setter c f); simpl; intuition congruence.
      - intros ->. destruct (default_value f) as [[t s]|] eqn:E.
        + simpl. apply fb_text, w_default_text. eauto.
        + assert (X : textless x) by (apply T; reflexivity).
          destruct (is_lazy c f); simpl; [apply fb_empty; intuition|]. destruct (is_optional c f); simpl; [apply fb_empty; intuition|].
          destruct (f_has_default_value f); simpl; [apply fb_type; intuition|].
          destruct (has_setter c f); simpl; [apply fb_none; intuition congruence|apply fb_type; intuition congruence].
    Qed.
    Lemma w_entry dflt user : f_skip f = false -> forall e, entry_told dflt user ss (f_ident f) x e <-> e = entry_of dflt user c f.
    Proof.
      intros NS e. unfold entry_told.
      rewrite (told_bool _ _ (has_setter_told NS)), (w_falls_back dflt user NS).
      assert (V : value_required (cfg_of c f) = true <-> demanded ss x) by (rewrite <- (w_value_required ft c ss HS x f R); tauto).
      rewrite (told_bool _ _ V), (checked_entry dflt user c f). destruct e as [n s m o]; simpl. split.
      - intros (-> & -> & -> & ->). reflexivity.
      - intros E. injection E as -> -> -> ->. auto.
    Qed.
    (** Default. *)
    Lemma w_starts dflt user o : starts_as dflt user ss x o <-> o = own_default dflt user c f.
    Proof.
      pose proof (w_lazy ft c ss HS x f R) as L. pose proof (w_optional ft c ss HS x f R) as O. pose proof w_textless as T.
      unfold own_default. split.
      - intros W. destruct W as [t W|W1 W2|W1 W2 W3].
        + apply w_default_text in W. destruct W as (s & ->). reflexivity.
        + apply T in W1. rewrite W1. destruct (is_lazy c f), (is_optional c f); simpl; intuition congruence.
        + apply T in W1. rewrite W1. destruct (is_lazy c f), (is_optional c f); simpl; intuition congruence.
      - intros ->. destruct (default_value f) as [[t s]|] eqn:E.
        + simpl. apply st_text, w_default_text. eauto.
        + assert (X : textless x) by (apply T; reflexivity).
          destruct (is_lazy c f); simpl; [apply st_empty; intuition|]. destruct (is_optional c f); simpl; [apply st_empty; intuition|].
          apply st_type; intuition congruence.
    Qed.
    Theorem w_default_starts bld alive dflt user t : ~ skipped x -> field_type c f = GOk t ->
      exists v, default_value_of bld alive dflt user c f = Some v /\ forall o, starts_as dflt user ss x o -> rep t o = Some v.
    Proof.
      intros NS T. rewrite <- (f_skipped ft x f R), not_true_iff_false in NS.
      destruct (default_runs bld alive dflt user c f t T) as (v & V1 & V2).
      - intros e E. destruct (default_typed c f true TUnit t T NS) as (e' & E' & H). congruence.
      - exists v. split; [exact V1|]. intros o W. apply w_starts in W. subst o. exact V2.
    Qed.
  End OneField.

  (** ** The form *)
  Lemma extra_skipped g : In g (extra_fields c) -> f_is_skipped g = true.
  Proof.
    unfold extra_fields. destruct (s_is_ref_counted (c_args c)); [|intros []]. destruct (myself_field c); [|intros []].
    intros [<-|[]]. reflexivity.
  Qed.
  Lemma input_told : builder_input c = filter (fun f => negb (f_is_skipped f)) (c_input_fields c).
  Proof.
    unfold builder_input, all_fields. rewrite filter_app. replace (filter _ (extra_fields c)) with (@nil field); [reflexivity|].
    pose proof extra_skipped as H. induction (extra_fields c) as [|g l IH]; [reflexivity|]. simpl. rewrite (H g (or_introl eq_refl)). simpl.
    apply IH. intros k K. apply H. right. exact K.
  Qed.
  Theorem w_form dflt user es :
    form_told dflt user ss (combine (map f_ident (c_input_fields c)) all) es <-> es = entries dflt user c.
  Proof.
    unfold entries. rewrite input_told. revert es. induction HF as [|x f l fs R F IH]; intros es; simpl.
    - split; [intros W; inversion W; reflexivity|intros ->; constructor].
    - pose proof (f_skipped ft x f R) as K. split.
      + intros W. inversion W as [|i y k es' S W'|i y k e es' S E W']; subst.
        * apply K in S. unfold f_is_skipped. rewrite S. simpl. apply IH; assumption.
        * destruct (f_skip f) eqn:NS; [tauto|]. unfold f_is_skipped. rewrite NS. simpl.
          apply (w_entry x f R dflt user NS) in E. subst e. f_equal. apply IH; assumption.
      + intros ->. unfold f_is_skipped. destruct (f_skip f) eqn:NS; simpl.
        * apply ft_skip; [tauto|]. apply IH; [exact F|reflexivity].
        * apply ft_entry; [intuition discriminate| |apply IH; [exact F|reflexivity]]. apply (w_entry x f R dflt user NS). reflexivity.
  Qed.
  Theorem w_builds_as dflt user post l es rs g :
    NoDup (map f_ident (all_fields c)) -> generated c ->
    form_told dflt user ss (combine (map f_ident (c_input_fields c)) all) es ->
    spec_forms es l blank = Some (rs, g) ->
    exists qs b, build_run dflt user c post l new_builder = Some (qs, b) /\ Forall2 (answers c post) qs rs /\ shows_form b g.
  Proof.
    intros D G W S. apply w_form in W. subst es.
    destruct (forms_run dflt user c post D G l new_builder blank rs g) as (qs & b & E & A & B & _).
    - intros y. reflexivity.
    - intros f _ _. reflexivity.
    - exact S.
    - exists qs, b. auto.
  Qed.
End Context.
