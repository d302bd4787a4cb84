(** C93 from the words of the attributes: how a life begins, and the document at its end. *)
From Coq Require Import List Bool String Arith Lia.
From Verif Require Import ProxyTypes ArgsModel CtxModel ArgsSpec TokenSpec ParseInput ParseModel ParseSpec ParseForms GrammarSpec
  RustAst RustSem CommonGen PlainGen SyncGen StructGen CodegenSpec CodegenProofs FieldSpec FieldRun FieldStruct
  WrittenSpec WrittenProofs WrittenNames SignSpec SignProofs SignMethods SignTypes MadeSpec MadeProofs
  BuilderSpec BuilderModel BuilderProofs BuilderFacts BehaveSpec BehaveModel BehaveProofs.
From Verif Require Import SerdeSpec SerdeModel SerdeProofs DocSpec DocProofs.
From Verif Require Import GuardCell ThreadSpec ThreadModel LockedModel ObjectSpec ObjectModel ObjectParts ObjectRecord ObjectWords
  LifeSpec LifeModel LifeProofs LifeRecord.
Import ListNotations.
Open Scope string_scope.
Open Scope list_scope.

Definition kept_fields (fs : list field) : list field := filter (fun f => negb (f_is_skipped f)) fs.

(** ** What can be shared *)
Theorem can_share c : forall fs ks vs, stores c fs ks vs -> (forall f, In f fs -> f_is_skipped f = false) ->
  (forall f, In f fs -> exists ms, field_methods c f = GOk ms) ->
  ((exists ps, map (fun x => part_from c (fst x) (snd x)) (combine fs vs) = map Some ps) <->
   forall f, In f fs -> is_sync c f = true \/ (is_lazy c f = false /\ is_inner_mut c f = false)).
Proof.
  induction fs as [|f fs IH]; intros [|k ks] [|w vs] St Sk Ms; try destruct St.
  - cbn. split; [intros _ f []|intros _; exists []; reflexivity].
  - destruct (IH ks vs H0 (fun g I => Sk g (or_intror I)) (fun g I => Ms g (or_intror I))) as [A B]. destruct (Ms f (or_introl eq_refl)) as (ms & M).
    pose proof (Sk f (or_introl eq_refl)) as Sf. destruct H as (t & T & Rp).
    pose proof (shareable_field c f k t ms Sf T M) as Sh.
    assert (Hc : has_content (view_of c f) k = true).
    { unfold has_content. destruct (v_shape (view_of c f)) eqn:V; try reflexivity. unfold f_is_skipped in Sf.
      pose proof (FieldSeq.content_ok _ _ (field_fits c f t Sf T) (mk_st w 0 false 0) k Rp V) as N. destruct k; [reflexivity|congruence]. }
    cbn [combine map fst snd]. split.
    + intros ([|p ps] & E); [discriminate E|]. injection E as E1 E2. intros g [<-|I]; [|apply A; eauto].
      apply part_from_iff in E1 as (k' & (t' & T' & R') & P). rewrite T in T'. injection T' as <-. apply rep_content in R', Rp.
      assert (k' = k) as -> by congruence. apply (proj1 Sh (ex_intro _ p P)).
    + intros G. destruct B as (ps & E); [intros g I; apply G; right; exact I|].
      destruct (proj2 Sh (conj (G f (or_introl eq_refl)) Hc)) as (p & P). exists (p :: ps). cbn. f_equal; [|exact E].
      apply part_from_iff. exists k. split; [exists t; auto|exact P].
Qed.

(** ** Values of all fields, and of those with methods *)
Lemma default_cells bld alive dflt user c (own : field -> option nat) : forall fs o, default_object bld alive dflt user c fs = Some o ->
  (forall f v, In f fs -> f_is_skipped f = false -> default_value_of bld alive dflt user c f = Some v -> keeps c f (own f) v) ->
  stores c (kept_fields fs) (map own (kept_fields fs)) (cell_values fs o).
Proof.
  unfold kept_fields. induction fs as [|f fs IH]; intros o E H; cbn [default_object] in E.
  - injection E as <-. exact I.
  - destruct (default_value_of bld alive dflt user c f) as [v|] eqn:V; [|discriminate E].
    destruct (default_object bld alive dflt user c fs) as [vs|] eqn:D; [|discriminate E]. injection E as <-.
    specialize (IH vs eq_refl (fun g w I => H g w (or_intror I))). cbn. destruct (f_is_skipped f) eqn:S; cbn; [exact IH|].
    split; [|exact IH]. exact (H f v (or_introl eq_refl) S V).
Qed.
Lemma built_cells c : NoDup (map f_ident (all_fields c)) -> forall ks o, stored_as c ks o -> map fst ks = map f_ident (builder_input c) ->
  stores c (builder_input c) (map snd ks) (map snd o).
Proof.
  intros D ks o S E. assert (N : NoDup (map f_ident (builder_input c))) by (apply input_nodup; exact D).
  assert (In0 : incl (builder_input c) (builder_input c)) by (intros f If; exact If).
  revert In0 E. generalize (builder_input c) at 1 3 4 as fs. induction S as [|p q ks o (Q & f & t & If & Ef & T & R) S IH]; intros [|g fs] In0 E; try discriminate E.
  - exact I.
  - cbn in E. injection E as E1 E2. cbn. split.
    + assert (f = g) as <-.
      { apply (CodegenStruct.ident_inj (builder_input c)); auto; [apply In0; left; reflexivity|congruence]. }
      exists t. auto.
    + apply IH; [intros h Ih; apply In0; right; exact Ih|exact E2].
Qed.
Lemma contents_names dflt user c : forall g k, contents (entries dflt user c) g = Some k -> map fst k = map f_ident (builder_input c).
Proof.
  unfold entries. intros g. induction (builder_input c) as [|f l IH]; intros k H; cbn in H.
  - injection H as <-. reflexivity.
  - destruct (entry_content g _) as [x|]; [|discriminate H]. destruct (contents _ g) as [k'|] eqn:E; [|discriminate H]. injection H as <-.
    cbn. f_equal. apply IH. reflexivity.
Qed.
Lemma handed_contents es : forall l g rs g', spec_forms es l g = Some (rs, g') -> forall k, In (Handed k) rs -> exists g1, contents es g1 = Some k.
Proof.
  induction l as [|[x n|] l IH]; intros g rs g' H k I; cbn in H.
  - injection H as <- <-. destruct I.
  - destruct (can_set es x); [eauto|discriminate H].
  - destruct (spec_forms es l _) as [[rs1 g1]|] eqn:E; [|discriminate H]. injection H as <- <-. destruct I as [Q|I]; [|eauto].
    unfold spec_build in Q. destruct (first_missing es g); [discriminate Q|]. destruct (contents es g) eqn:C; [|discriminate Q].
    injection Q as <-. eauto.
Qed.
Section Docs.
  Variable ft : features.
  Lemma cells_of_all c : forall fs all, Forall2 (read_as ft) all fs -> forall ks o, stores c fs ks o ->
    exists js, stores c (kept_fields fs) js (cell_values fs o) /\ rewritten all ks js ks.
  Proof.
    unfold kept_fields. induction 1 as [|x f all fs R F IH]; intros [|k ks] [|v o] St; try destruct St.
    - exists []. split; [exact I|constructor].
    - destruct (IH ks o H0) as (js & A & B). pose proof (f_skipped ft x f R) as K. cbn. unfold f_is_skipped in *. destruct (f_skip f) eqn:E; cbn.
      + exists js. split; [exact A|]. apply rw_skip; [tauto|exact B].
      + exists (k :: js). split; [cbn; auto|]. apply rw_cell; [intuition discriminate|exact B].
  Qed.
  Lemma all_from_cells c : forall fs all, Forall2 (read_as ft) all fs -> forall ks o js vs, stores c fs ks o -> stores c (kept_fields fs) js vs ->
    exists ks', stores c fs ks' (with_cells fs o vs) /\ rewritten all ks js ks'.
  Proof.
    unfold kept_fields. induction 1 as [|x f all fs R F IH]; intros [|k ks] [|v o] js vs St Sc; try destruct St; cbn in Sc.
    - destruct js, vs; try destruct Sc. exists []. split; [exact I|constructor].
    - pose proof (f_skipped ft x f R) as K. cbn. unfold f_is_skipped in *. destruct (f_skip f) eqn:E; cbn in *.
      + destruct (IH ks o js vs H0 Sc) as (ks' & A & B). exists (k :: ks'). split; [cbn; auto|]. apply rw_skip; [tauto|exact B].
      + destruct js as [|j js], vs as [|w vs]; try destruct Sc. destruct (IH ks o js vs H0 H2) as (ks' & A & B).
        exists (j :: ks'). split; [cbn; auto|]. apply rw_cell; [intuition discriminate|exact B].
  Qed.
End Docs.

Section Context.
  Variables (ft : features) (c : sctx) (ss : list (list tok)) (all : list source).
  Hypothesis HS : struct_as ft ss (c_args c).
  Hypothesis HF : Forall2 (read_as ft) all (c_input_fields c).
  Theorem w_cells ps : cells_told ss all all ps <-> ps = cells_of c (builder_input c).
  Proof.
    unfold cells_of. rewrite input_told.
    assert (G : forall l fs, Forall2 (read_as ft) l fs -> forall ps,
      cells_told ss all l ps <-> ps = map (fun f => (view_of c f, is_async c f)) (filter (fun f => negb (f_is_skipped f)) fs)).
    { induction 1 as [|x f l fs R F IH]; intros qs; cbn.
      - split; [intros W; inversion W; reflexivity|intros ->; constructor].
      - pose proof (f_skipped ft x f R) as K. unfold f_is_skipped. destruct (f_skip f) eqn:E; cbn.
        + split; [intros W; inversion W as [|? ? ? Sk W'|? ? ? ? Sk]; subst; [apply IH, W'|tauto]|].
          intros ->. apply ct_skip; [tauto|]. apply IH. reflexivity.
        + split.
          * intros W. inversion W as [|? ? ? Sk W'|? q ? qs' Sk Q W']; subst; [exfalso; intuition discriminate|].
            rewrite (view_told ft c ss all HS HF x f R q Q). apply (w_facts ft c ss HS x f R all HF) in Q. subst q. f_equal. apply IH, W'.
          * intros ->. pose proof (proj2 (w_facts ft c ss HS x f R all HF _) eq_refl) as Q.
            pose proof (view_told ft c ss all HS HF x f R _ Q) as V. rewrite <- V.
            apply (ct_cell ss all x (facts_of (cfg_of c f) (is_sync c f)) l _); [intuition discriminate|exact Q|apply IH; reflexivity]. }
    apply G, HF.
  Qed.
  Theorem w_defaults dflt user ks : defaults_told dflt user ss all ks <-> ks = map (own_default dflt user c) (builder_input c).
  Proof.
    rewrite input_told. revert ks. induction HF as [|x f l fs R F IH]; intros ks; cbn.
    - split; [intros W; inversion W; reflexivity|intros ->; constructor].
    - pose proof (f_skipped ft x f R) as K. unfold f_is_skipped in *. destruct (f_skip f) eqn:E; cbn.
      + split; [intros W; inversion W as [|? ? ? Sk W'|? ? ? ? Sk]; subst; [apply IH; assumption|tauto]|].
        intros ->. apply dt_skip; [tauto|]. apply IH; [exact F|reflexivity].
      + split.
        * intros W. inversion W as [|? ? ? Sk W'|? ? k ks' Sk Q W']; subst; [exfalso; intuition discriminate|].
          apply (w_starts ft c ss HS x f R) in Q. subst k. f_equal. apply IH; assumption.
        * intros ->. apply dt_cell; [intuition discriminate| |apply IH; [exact F|reflexivity]]. apply (w_starts ft c ss HS x f R). reflexivity.
  Qed.
  Lemma w_unskipped f : In f (builder_input c) -> f_is_skipped f = false.
  Proof. unfold builder_input. intros I. apply filter_In in I. destruct (f_is_skipped f); [destruct I; discriminate|reflexivity]. Qed.
  Lemma w_source f : In f (builder_input c) -> exists x, In x all /\ read_as ft x f.
  Proof. rewrite input_told. intros I. apply filter_In in I as [I _]. exact (Forall2_in_r _ _ _ HF f I). Qed.
  Lemma w_works : sound_words ss all -> forall f ms k, In f (builder_input c) -> field_methods c f = GOk ms -> In k (map m_kind ms) -> works c f k = true.
  Proof.
    intros So f ms k I M K. destruct (w_source f I) as (x & Ix & R). apply (w_methods ft c ss all HS HF x f R k ms M) in K.
    pose proof (proj2 (w_facts ft c ss HS x f R all HF _) eq_refl) as Q.
    exact (works_told ft c ss all HS HF x f R _ k ms Q M K (So x _ k Ix (proj1 K) Q K)).
  Qed.
  Variables (dflt : nat) (user : string -> nat).
  Variable parts : list (FieldSpec.view * bool).
  Hypothesis Ce : cells_told ss all all parts.
  Hypothesis So : sound_words ss all.
  Theorem w_life ks vs scenes vs' : stores c (builder_input c) ks vs ->
    lives dflt user c (builder_input c) vs scenes vs' -> Forall (makes_sense dflt parts) scenes ->
    exists ks', tale dflt parts ks scenes ks' /\ stores c (builder_input c) ks' vs'.
  Proof.
    intros St L Se. pose proof (proj1 (w_cells parts) Ce) as ->.
    exact (whole_life dflt user c (builder_input c) w_unskipped (w_works So) vs scenes vs' L ks St Se).
  Qed.
  Theorem w_built post l es rs g n ks : NoDup (map f_ident (all_fields c)) -> generated c -> has_post_build c = false ->
    form_told dflt user ss (combine (map f_ident (c_input_fields c)) all) es -> spec_forms es l blank = Some (rs, g) ->
    nth_error rs n = Some (Handed ks) ->
    exists qs b o, build_run dflt user c post l new_builder = Some (qs, b) /\ nth_error qs n = Some (BDone o, []) /\
      forall scenes vs', lives dflt user c (builder_input c) (map snd o) scenes vs' -> Forall (makes_sense dflt parts) scenes ->
      exists ks', tale dflt parts (map snd ks) scenes ks' /\ stores c (builder_input c) ks' vs'.
  Proof.
    intros D G Np W Sf Nt. destruct (w_builds_as ft c ss all HS HF dflt user post l es rs g D G W Sf) as (qs & b & E & A & _).
    apply (w_form ft c ss all HS HF) in W. subst es.
    assert (X : exists q, nth_error qs n = Some q /\ answers c post q (Handed ks)).
    { clear - A Nt. revert n Nt. induction A as [|q r qs rs H A IH]; intros [|n] Nt; try discriminate Nt; cbn in *; [injection Nt as ->; eauto|eauto]. }
    destruct X as (q & Nq & o & St & ->). rewrite (finish_plain c post Np) in Nq. exists qs, b, o. split; [exact E|]. split; [exact Nq|].
    intros scenes vs' L Se. apply (w_life _ (map snd o)); auto. apply built_cells; auto.
    destruct (handed_contents _ _ _ _ _ Sf ks (nth_error_In _ _ Nt)) as (g1 & C). exact (contents_names dflt user c g1 ks C).
  Qed.
  Theorem w_default bld alive o ks scenes vs' : default_object bld alive dflt user c (all_fields c) = Some o ->
    defaults_told dflt user ss all ks ->
    lives dflt user c (builder_input c) (cell_values (all_fields c) o) scenes vs' -> Forall (makes_sense dflt parts) scenes ->
    exists ks', tale dflt parts ks scenes ks' /\ stores c (builder_input c) ks' vs'.
  Proof.
    intros De W L Se. apply w_defaults in W. subst ks. apply (w_life _ (cell_values (all_fields c) o)); auto.
    apply (default_cells bld alive dflt user c (own_default dflt user c) (all_fields c) o De).
    intros f v I Sk V. assert (Ib : In f (builder_input c)) by (apply filter_In; rewrite Sk; auto). destruct (w_source f Ib) as (x & _ & R).
    unfold default_value_of in V. destruct (field_type c f) as [t| |] eqn:T; try discriminate V.
    destruct (w_default_starts ft c ss HS x f R bld alive dflt user t) as (v' & V' & Hv).
    { rewrite <- (f_skipped ft x f R), not_true_iff_false. exact Sk. }
    { exact T. }
    exists t. split; [exact T|]. unfold default_value_of in V'. rewrite T in V'. rewrite V in V'. injection V' as <-.
    apply Hv, (w_starts ft c ss HS x f R). reflexivity.
  Qed.
  Section Document.
    Variables (named given : string -> option nat) (bld bld' : string -> nat -> outcome nat nat).
    Let given_f (f : field) := given (f_ident f).
    Hypothesis SD : with_serde ss.
    Hypothesis D : NoDup (map f_ident (all_fields c)).
    Theorem w_began alive ps d o : from_compiles c -> defaults_make_sense named given_f c ->
      places_told dflt user named given bld ss all (map f_ident (c_input_fields c)) ps ->
      deserialise bld alive dflt user named given_f c d = RDone o ->
      exists r js, spec_reads (map slot_at ps) d = Some r /\
        let ks := map (fun p => comes_in (fst p) (snd p)) (combine ps r) in
        rewritten all ks js ks /\
        forall scenes vs', lives dflt user c (builder_input c) (cell_values (all_fields c) o) scenes vs' -> Forall (makes_sense dflt parts) scenes ->
        exists js' ks', tale dflt parts js scenes js' /\ rewritten all ks js' ks' /\ stores c (all_fields c) ks' (with_cells (all_fields c) o vs').
    Proof.
      intros FC Ms Pl De. pose proof (w_deserialise ft c ss all HS HF bld dflt user named given alive ps d SD FC D Ms Pl) as X.
      destruct (spec_reads (map slot_at ps) d) as [r|]; [|unfold given_f in De; congruence].
      destruct X as (o' & De' & St). assert (o' = o) as -> by (unfold given_f in De; congruence).
      pose proof (no_extras ft c ss HS SD) as Ne.
      destruct (cells_of_all ft c (all_fields c) all) with (ks := map (fun p => comes_in (fst p) (snd p)) (combine ps r)) (o := o) as (js & A & B);
        [rewrite Ne; exact HF|exact St|].
      exists r, js. split; [reflexivity|]. cbn zeta. split; [exact B|].
      intros scenes vs' L Se. destruct (w_life js _ scenes vs' A L Se) as (js' & Ta & St').
      destruct (all_from_cells ft c (all_fields c) all) with (ks := map (fun p => comes_in (fst p) (snd p)) (combine ps r)) (o := o) (js := js') (vs := vs') as (ks' & A' & B');
        [rewrite Ne; exact HF|exact St|exact St'|].
      exists js', ks'. auto.
    Qed.
    Theorem w_documents alive alive' ps ps' d o : from_compiles c -> into_compiles c -> defaults_make_sense named given_f c ->
      places_told dflt user named given bld ss all (map f_ident (c_input_fields c)) ps ->
      places_told dflt user named given bld' ss all (map f_ident (c_input_fields c)) ps' ->
      deserialise bld alive dflt user named given_f c d = RDone o ->
      exists r js, spec_reads (map slot_at ps) d = Some r /\
        let ks := map (fun p => comes_in (fst p) (snd p)) (combine ps r) in
        rewritten all ks js ks /\
        forall scenes vs', lives dflt user c (builder_input c) (cell_values (all_fields c) o) scenes vs' -> Forall (makes_sense dflt parts) scenes ->
        exists js' ks', tale dflt parts js scenes js' /\ rewritten all ks js' ks' /\
          serialise bld' alive' dflt user c (with_cells (all_fields c) o vs') =
            if existsb (fun p => run_panics (fst p) (snd p)) (combine ps' ks') then WPanic
            else SerdeModel.WDone (doc_out (combine ps' ks')) (runs_out (combine ps' ks')).
    Proof.
      intros FC IC Ms Pl Pl' De. destruct (w_began alive ps d o FC Ms Pl De) as (r & js & A & B & C). exists r, js. split; [exact A|]. split; [exact B|].
      intros scenes vs' L Se. destruct (C scenes vs' L Se) as (js' & ks' & E & F & G). exists js', ks'. split; [exact E|]. split; [exact F|].
      exact (w_serialise ft c ss all HS HF bld' dflt user named given alive' ps' ks' _ SD IC D G Pl').
    Qed.
  End Document.
End Context.
