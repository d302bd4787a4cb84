(** Proofs for C84. *)
From Coq Require Import List Bool String Ascii.
From Verif Require Import ProxyTypes ArgsModel CtxModel ArgsSpec TokenSpec ParseInput ParseModel ParseSpec ParseFacts ParseForms ParseDefault GrammarSpec GrammarProofs
  RustAst RustSem CommonGen PlainGen SyncGen StructGen CodegenSpec CodegenStruct SerdeSpec SerdeModel SerdeProofs SerdeFacts
  WrittenSpec WrittenProofs WrittenNames SignSpec SignProofs SignMethods SignTypes MadeSpec MadeProofs MadeSerde BehaveSpec BehaveProofs DocSpec.
Import ListNotations.
Open Scope string_scope.
Open Scope list_scope.

(** ** [serde(default(...))] *)
Lemma serde_default_carries : carries serde_arg (fun sn w => opt_arg sn "default" default_arg = Some (se_default w)).
Proof.
  unfold serde_arg. eapply (nesting_carries _ serde_table [On "public" "private"]); [reflexivity| |literal_kept|].
  - parts. reflexivity.
  - intros a E. injection E as <-. reflexivity.
Qed.
Lemma default_rest c m dv : meta_ok m -> argument_for "default" c (rest m) -> (default_arg m = Some dv <-> default_form dv c).
Proof.
  intros OK A. assert (NS : not_sep (rest m)) by (destruct m as [p|p d ts|p [|[a|a|a|d g] v]]; simpl; try exact I; reflexivity).
  destruct (argument_parsed "default" c (rest m) eq_refl A NS) as (ab & P). 
  assert (K : exists m', built ab "default" (rest m) = Some m' /\ meta_name m' = "default" /\ default_arg m' = default_arg m).
  { destruct m as [p|p d ts|p v]; cbn [rest built] in *.
    - eexists. split; [reflexivity|]. split; reflexivity.
    - destruct OK as (_ & _ & D). simpl in D. destruct d; try congruence; (eexists; split; [reflexivity|]; split; reflexivity).
    - destruct OK as (_ & _ & D). simpl in D. unfold built. destruct v as [|w v]; [congruence|]. simpl. eexists. split; [reflexivity|]. split; reflexivity. }
  destruct K as (m' & B & N & E). rewrite B in P. simpl in P. rewrite <- E. apply (default_arg_form c m' dv P N).
Qed.
Lemma default_stored cs sn o : stored cs sn -> opt_arg sn "default" default_arg = Some o ->
  forall dv, o = Some dv <-> exists c, In c cs /\ default_form dv c.
Proof.
  intros [L1 L3] O dv. unfold opt_arg in O. destruct (assoc "default" sn) as [m|] eqn:E.
  - destruct (default_arg m) as [d|] eqn:X; [|discriminate]. injection O as <-. destruct (L1 _ _ E) as (OK & c & I & A).
    split.
    + intros H. injection H as <-. exists c. split; [exact I|]. apply (default_rest c m d OK A). exact X.
    + intros (c' & I' & F). assert (R : exists r, argument_for "default" c' r) by (destruct F; eauto). destruct R as (r & R).
      destruct (L3 "default" c' r eq_refl I' R) as (m' & E' & <-). rewrite E in E'. injection E' as <-.
      apply (default_rest c' m dv OK R) in F. congruence.
  - injection O as <-. split; [discriminate|]. intros (c & I & F). assert (R : exists r, argument_for "default" c r) by (destruct F; eauto).
    destruct R as (r & R). destruct (L3 "default" c r eq_refl I R) as (m & E' & _). congruence.
Qed.
Lemma serde_default_said cs seen o : stored cs seen -> opt_arg seen "serde" serde_arg = Some o ->
  forall v s, serde_says cs v s <-> SerdeModel.told_arg o = Some (mk_defarg false v s).
Proof.
  intros ST O v s. destruct (carried _ _ _ _ _ _ ST (eq_refl : segment_ok "serde" = true) serde_default_carries O) as (bs & sn & [U OP] & SB & H).
  assert (B : serde_says cs v s <-> exists c, In c bs /\ default_form (mk_defarg false v s) c).
  { unfold serde_says. split.
    - intros (bs' & c & I & J & F). rewrite (U _ I) in J. eauto.
    - intros (c & J & F). destruct OP as [OP| ->]; [|destruct J]. exists bs, c. auto. }
  rewrite B. destruct o as [w|].
  - rewrite <- (default_stored bs sn _ SB H). destruct w as [a1 a2 a3 a4 a5 a6 a7 [[off val str]|] a9]; simpl; [|split; discriminate].
    destruct off; split; try discriminate; intros K; injection K as <- <-; reflexivity.
  - subst sn. simpl. split; [|discriminate]. intros (c & J & F). assert (R : exists r, argument_for "default" c r) by (destruct F; eauto).
    destruct R as (r & R). destruct SB as [_ L3]. destruct (L3 "default" c r eq_refl J R) as (m & E' & _). discriminate.
Qed.

Lemma filter_map {A B} (g : A -> B) (P : B -> bool) l : filter P (map g l) = map g (filter (fun a => P (g a)) l).
Proof. induction l as [|a l IH]; simpl; [reflexivity|]. destruct (P (g a)); simpl; rewrite IH; reflexivity. Qed.
Lemma Forall2_in_r {A B} (P : A -> B -> Prop) l m : Forall2 P l m -> forall b, In b m -> exists a, In a l /\ P a b.
Proof.
  induction 1 as [|a b l m H F IH]; intros y [].
  - subst. exists a. split; [left; reflexivity|exact H].
  - destruct (IH y H0) as (z & I & Q). exists z. split; [right; exact I|exact Q].
Qed.

Section Context.
  Variables (ft : features) (c : sctx) (ss : list (list tok)) (all : list source).
  Hypothesis HS : struct_as ft ss (c_args c).
  Hypothesis HF : Forall2 (read_as ft) all (c_input_fields c).
  Variables (bld : string -> nat -> outcome nat nat) (dflt : nat) (user : string -> nat) (named given : string -> option nat).
  Notation given_f := (fun f => given (f_ident f)).
  Lemma struct_says v s : serde_says ss v s <-> SerdeModel.told_arg (s_serde (c_args c)) = Some (mk_defarg false v s).
  Proof.
    destruct (struct_stored _ _ _ HS) as (seen & ST & S). apply (serde_default_said ss seen _ ST).
    apply (sargs_of_inv _ _ S).
  Qed.
  Lemma told_arg_on o d : SerdeModel.told_arg o = Some d -> d = mk_defarg false (d_value d) (d_is_str d).
  Proof. destruct o as [[a1 a2 a3 a4 a5 a6 a7 [[[] v s]|] a9]|]; simpl; try discriminate. intros E. injection E as <-. reflexivity. Qed.
  Lemma silent_none cs o : (forall v s, serde_says cs v s <-> SerdeModel.told_arg o = Some (mk_defarg false v s)) ->
    (silent cs <-> SerdeModel.told_arg o = None).
  Proof.
    intros H. unfold silent. split.
    - intros K. destruct (SerdeModel.told_arg o) as [d|] eqn:E; [|reflexivity]. exfalso. pose proof (told_arg_on o d E) as D.
      apply (K (d_value d) (d_is_str d)), H. rewrite <- D. reflexivity.
    - intros K v s W. apply H in W. congruence.
  Qed.
  Definition place_of (f : field) : place :=
    mk_place (doc_key f) (field_serializes f) (field_deserializes f) (facts_of (cfg_of c f) (is_sync c f))
      (own_default dflt user c f) (SerdeModel.told dflt user named given_f c f) (bld (f_ident f) 0).
  Section OneField.
    Variables (x : source) (f : field).
    Hypothesis R : read_as ft x f.
    Lemma field_says v s : serde_says (so_args x) v s <-> SerdeModel.told_arg (f_serde f) = Some (mk_defarg false v s).
    Proof.
      destruct (field_stored _ _ _ R) as (seen & f0 & ST & (i & vv & t & a & S) & H). 
      apply (serde_default_said (so_args x) seen _ ST). replace (f_serde f) with (f_serde f0) by (symmetry; tauto).
      apply (field_of_inv _ _ _ _ _ _ S).
    Qed.
    Lemma w_empty o : empty_as dflt ss x o <-> o = if is_lazy c f || is_optional c f then None else Some dflt.
    Proof.
      pose proof (w_lazy ft c ss HS x f R) as L. pose proof (w_optional ft c ss HS x f R) as O. split.
      - intros [H|H1 H2]; destruct (is_lazy c f), (is_optional c f); simpl; intuition congruence.
      - intros ->. destruct (is_lazy c f); simpl; [apply ea_none; intuition|]. destruct (is_optional c f); simpl; [apply ea_none; intuition|].
        apply ea_some; intuition congruence.
    Qed.
    Lemma w_missing o : for_missing dflt user named given ss (f_ident f) x o <-> o = SerdeModel.told dflt user named given_f c f.
    Proof.
      pose proof field_says as F. pose proof struct_says as S. pose proof (silent_none _ _ F) as SF. pose proof (silent_none _ _ S) as SS.
      unfold SerdeModel.told. split.
      - intros W. destruct W as [s o W E|t W|t W|s o W1 W2 E|t s W1 W2|W1 W2].
        + apply F in W. rewrite W. simpl. apply w_empty in E. subst o. reflexivity.
        + apply F in W. rewrite W. reflexivity.
        + apply F in W. rewrite W. reflexivity.
        + apply SF in W1. apply S in W2. rewrite W1, W2. simpl. apply (w_starts ft c ss HS x f R dflt user) in E. subst o. reflexivity.
        + apply SF in W1. apply S in W2. rewrite W1, W2. reflexivity.
        + apply SF in W1. apply SS in W2. rewrite W1, W2. reflexivity.
      - intros ->. destruct (SerdeModel.told_arg (f_serde f)) as [d|] eqn:E.
        + assert (K : serde_says (so_args x) (d_value d) (d_is_str d)) by (apply F; rewrite <- (told_arg_on _ _ E); reflexivity).
          destruct (d_value d) as [t|].
          * destruct (d_is_str d); [apply fm_function|apply fm_value]; exact K.
          * apply (fm_type _ _ _ _ _ _ _ (d_is_str d)); [exact K|]. apply w_empty. reflexivity.
        + assert (K : silent (so_args x)) by (apply SF; reflexivity).
          destruct (SerdeModel.told_arg (s_serde (c_args c))) as [d|] eqn:E2.
          * assert (K2 : serde_says ss (d_value d) (d_is_str d)) by (apply S; rewrite <- (told_arg_on _ _ E2); reflexivity).
            destruct (d_value d) as [t|].
            -- apply (fm_struct_value _ _ _ _ _ (f_ident f) _ t (d_is_str d)); assumption.
            -- apply (fm_struct _ _ _ _ _ _ _ (d_is_str d)); [exact K|exact K2|]. apply (w_starts ft c ss HS x f R dflt user). reflexivity.
          * apply fm_nothing; [exact K|]. apply SS. reflexivity.
    Qed.
    Lemma w_key t : or_usual (fun u => renamed u (so_args x)) (f_ident f) t <-> t = doc_key f.
    Proof.
      unfold or_usual, doc_key. pose proof (field_renamed ft x f R) as N. destruct (f_base_name_of f) as [u|] eqn:E.
      - pose proof (proj1 (N u) eq_refl) as W. split.
        + intros [H|[H _]]; [apply N in H; congruence|]. destruct (H u W).
        + intros ->. left. exact W.
      - split; [intros [H|[_ H]]; [apply N in H; discriminate|exact H]|]. intros ->. right. split; [|reflexivity]. intros u H. apply N in H. discriminate.
    Qed.
    Hypothesis SD : with_serde ss.
    Lemma w_out : field_serializes f = true <-> written_out ss x.
    Proof.
      rewrite <- (w_written_out ft c ss HS x f R). rewrite <- (written_is c f); [reflexivity|]. apply (w_with_serde ft c ss HS). exact SD.
    Qed.
    Lemma w_in : field_deserializes f = true <-> read_in ss x.
    Proof.
      rewrite <- (w_read_in ft c ss HS x f R). rewrite <- (read_is c f); [reflexivity|]. apply (w_with_serde ft c ss HS). exact SD.
    Qed.
    Theorem w_place p : place_told dflt user named given bld ss all (f_ident f) x p <-> p = place_of f.
    Proof.
      unfold place_told. rewrite w_key, (told_bool _ _ w_out), (told_bool _ _ w_in), (w_facts ft c ss HS x f R all HF),
        (w_starts ft c ss HS x f R dflt user), w_missing. destruct p as [a1 a2 a3 a4 a5 a6 a7]; simpl. unfold place_of. split.
      - intros (-> & -> & -> & -> & -> & -> & ->). reflexivity.
      - intros E. injection E as -> -> -> -> -> -> ->. repeat split; reflexivity.
    Qed.
  End OneField.
  (** serde and rc exclude each other. *)
  Lemma no_rc : with_serde ss -> s_is_ref_counted (c_args c) = false.
  Proof.
    intros SD. destruct HS as (ts & A & H). destruct (read_struct_inv _ _ _ H) as (cs' & items & seen & A' & AS & C & S & V & _).
    destruct (on_given_serde ft c ss HS SD) as (w & W).
    pose proof (proj2 (w_with_serde ft c ss HS) SD) as K. unfold s_is_serde in K. rewrite W in K.
    destruct (s_is_ref_counted (c_args c)) eqn:RC; [exfalso|reflexivity].
    assert (se_off w = false) as OFF.
    { destruct (se_off w) eqn:OFF; [|reflexivity]. unfold serde_is_serde in K. rewrite OFF in K.
      destruct (se_serialize w) as [[]|], (se_deserialize w) as [[]|]; simpl in K; discriminate K. }
    unfold sargs_errors, validate_exclusives, sargs_groups in V. simpl in V.
    rewrite W, OFF in V. unfold s_is_ref_counted in RC. rewrite ?app_nil_r in V. revert V RC.
    destruct (on (on_off (s_rc (c_args c)))) eqn:O; simpl; intros V RC.
    - repeat match type of V with context [if ?b then _ else _] => destruct b end; discriminate V.
    - unfold on in O. destruct (on_off (s_rc (c_args c))) as [[]|]; simpl in *; discriminate.
  Qed.
  Lemma no_extras : with_serde ss -> all_fields c = c_input_fields c.
  Proof. intros SD. unfold all_fields, extra_fields. rewrite (no_rc SD). reflexivity. Qed.
  Theorem w_places ps : with_serde ss ->
    (places_told dflt user named given bld ss all (map f_ident (c_input_fields c)) ps <-> ps = map place_of (all_fields c)).
  Proof.
    intros SD. rewrite (no_extras SD). unfold places_told.
    assert (G : forall l fs, Forall2 (read_as ft) l fs -> forall ps,
      Forall2 (fun q p => place_told dflt user named given bld ss all (fst q) (snd q) p) (combine (map f_ident fs) l) ps <-> ps = map place_of fs).
    { intros l fs F. induction F as [|x f l fs R F IH]; intros qs; simpl.
      - split; [intros W; inversion W; reflexivity|intros ->; constructor].
      - split.
        + intros W. inversion W as [|q p k qs' W1 W2]; subst. simpl in W1. apply (w_place x f R SD) in W1. subst p. f_equal. apply IH, W2.
        + intros ->. constructor; [simpl; apply (w_place x f R SD); reflexivity|apply IH; reflexivity]. }
    apply G, HF.
  Qed.
  Lemma slots_places : map slot_at (map place_of (all_fields c)) = slots bld dflt user named given_f c.
  Proof. unfold slots. rewrite map_map. apply map_ext. intros f. reflexivity. Qed.
  Lemma combine_places (fs : list field) (ks : list (option nat)) :
    combine (map place_of fs) ks = map (fun p => (place_of (fst p), snd p)) (combine fs ks).
  Proof. revert ks. induction fs as [|f fs IH]; intros [|k ks]; simpl; try reflexivity. rewrite IH. reflexivity. Qed.
  Lemma panics_told f k : run_panics (place_of f) k = blows_up bld c f k.
  Proof.
    unfold run_panics, is_run, blows_up, waits, place_of. simpl. destruct k; simpl; [|reflexivity]. rewrite !andb_false_r. reflexivity.
  Qed.
  Lemma out_told f k : field_serializes f = true -> goes_out (place_of f) k = really_written bld c f k.
  Proof.
    intros S. unfold goes_out, is_run, really_written, waits, place_of. simpl. rewrite S. destruct k; simpl; [rewrite andb_false_r; reflexivity|].
    change (g_lazy (cfg_of c f)) with (is_lazy c f). change (g_async (cfg_of c f)) with (is_async c f). rewrite andb_true_r. reflexivity.
  Qed.

  Theorem w_serialise alive ps ks o : with_serde ss -> into_compiles c -> NoDup (map f_ident (all_fields c)) -> stores c (all_fields c) ks o ->
    places_told dflt user named given bld ss all (map f_ident (c_input_fields c)) ps ->
    serialise bld alive dflt user c o =
      if existsb (fun p => run_panics (fst p) (snd p)) (combine ps ks) then WPanic else WDone (doc_out (combine ps ks)) (runs_out (combine ps ks)).
  Proof.
    intros SD IC D ST W. apply (w_places ps SD) in W. subst ps.
    destruct (existsb _ _) eqn:E.
    - apply (proj1 (serialise_panics bld alive dflt user c ks o IC D ST)). apply existsb_exists in E. destruct E as ([p k] & I & E).
      rewrite combine_places in I. apply in_map_iff in I. destruct I as ([f k'] & Q & I). simpl in Q. injection Q as <- <-.
      simpl in E. rewrite panics_told in E. eauto.
    - rewrite (serialise_exact bld alive dflt user c ks o IC D ST).
      + rewrite combine_places. unfold doc_out, runs_out. rewrite !filter_map. rewrite !map_map. simpl. f_equal.
        * apply map_ext_in. intros [f k] I. apply filter_In in I. destruct I as [_ S]. simpl in *. rewrite (out_told f k S). reflexivity.
        * apply map_ext_in. intros [f k] I. apply filter_In in I. destruct I as [_ S]. simpl in *. apply andb_true_iff in S. destruct S as [S1 S2].
          unfold is_run, waits. simpl. rewrite S1. change (g_lazy (cfg_of c f)) with (is_lazy c f). change (g_async (cfg_of c f)) with (is_async c f). rewrite S2.
          destruct k, (is_sync c f && is_async c f); reflexivity.
      + intros f k I. rewrite <- panics_told. destruct (run_panics (place_of f) k) eqn:B; [|reflexivity].
        exfalso. rewrite <- not_true_iff_false in E. apply E, existsb_exists. exists (place_of f, k). split; [|exact B].
        rewrite combine_places. apply in_map_iff. exists (f, k). auto.
  Qed.
  Lemma stores_told ks ks' o : ks = ks' -> stores c (all_fields c) ks o -> stores c (all_fields c) ks' o.
  Proof. intros ->. auto. Qed.
  Theorem w_deserialise alive ps d : with_serde ss -> from_compiles c -> NoDup (map f_ident (all_fields c)) ->
    defaults_make_sense named given_f c ->
    places_told dflt user named given bld ss all (map f_ident (c_input_fields c)) ps ->
    match spec_reads (map slot_at ps) d with
    | None => deserialise bld alive dflt user named given_f c d = RRefused
    | Some ks => exists o, deserialise bld alive dflt user named given_f c d = RDone o /\
        stores c (all_fields c) (map (fun p => comes_in (fst p) (snd p)) (combine ps ks)) o
    end.
  Proof.
    intros SD FC D M W. apply (w_places ps SD) in W. subst ps. rewrite slots_places.
    destruct (spec_reads _ d) as [ks|] eqn:E.
    - destruct (deserialise_exact bld alive dflt user named given_f c d ks FC D M E) as (o & E1 & E2). exists o. split; [exact E1|].
      eapply stores_told; [|exact E2]. rewrite combine_places, map_map. reflexivity.
    - apply (proj1 (deserialise_as_spec bld alive dflt user named given_f c d FC D M)). exact E.
  Qed.
  Theorem w_round alive ps ks o d n : with_serde ss -> into_compiles c -> from_compiles c -> NoDup (map f_ident (all_fields c)) ->
    defaults_make_sense named given_f c -> NoDup (map pl_key (filter (fun p => pl_out p || pl_in p) ps)) -> stores c (all_fields c) ks o ->
    places_told dflt user named given bld ss all (map f_ident (c_input_fields c)) ps ->
    serialise bld alive dflt user c o = WDone d n ->
    exists o', deserialise bld alive dflt user named given_f c d = RDone o' /\
      stores c (all_fields c) (map (fun p => goes_round (fst p) (snd p)) (combine ps ks)) o'.
  Proof.
    intros SD IC FC D M K ST W E. apply (w_places ps SD) in W. subst ps.
    assert (KD : keys_distinct c).
    { unfold keys_distinct, shadow_input. rewrite filter_map, map_map in K. cbn [pl_key pl_out pl_in place_of] in K.
      rewrite (filter_ext_in (is_serde c) (fun f => field_serializes f || field_deserializes f)); [exact K|].
      intros f I. rewrite (no_extras SD) in I. destruct (Forall2_in_r _ _ _ HF f I) as (x & _ & R).
      apply eq_true_iff_eq. rewrite orb_true_iff, (w_out x f R SD), (w_in x f R SD), (w_takes_part ft c ss HS x f R). split.
      - apply (w_some_way ft c ss HS x f R).
      - intros [H|H]; apply H. }
    destruct (round_trip_exact bld alive dflt user named given_f c ks o d n IC FC D M KD ST E) as (o' & E1 & E2).
    exists o'. split; [exact E1|]. eapply stores_told; [|exact E2]. rewrite combine_places, map_map. apply map_ext. intros [f k]. simpl.
    unfold really_back, goes_round, comes_in. simpl. destruct (field_serializes f) eqn:S; [|reflexivity]. simpl.
    destruct (field_deserializes f) eqn:S2; [|reflexivity]. rewrite (out_told f k S). destruct (really_written bld c f k); [reflexivity|].
    destruct (is_sync c f); reflexivity.
  Qed.
End Context.
