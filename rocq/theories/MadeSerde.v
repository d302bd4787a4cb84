(** Proofs for C80 and C81: build() and serde. *)
From Coq Require Import List Bool String Ascii.
From Verif Require Import ArgsModel CtxModel ArgsSpec TokenSpec ParseInput ParseModel ParseSpec ParseFacts ParseForms ParseDefault GrammarSpec GrammarProofs
  RustAst CommonGen PlainGen SyncGen StructGen CopyModel CodegenSpec CodegenStruct WrittenSpec WrittenProofs WrittenNames SignSpec SignProofs SignMethods SignTypes
  MadeModel MadeSpec MadeProofs.
Import ListNotations.
Open Scope string_scope.
Open Scope list_scope.

Lemma stored_honest {A} cs seen n (f : smeta -> option A) off o : stored cs seen -> segment_ok n = true -> honest f off -> opt_arg seen n f = Some o ->
  heeds (word n cs) (option_map (fun a => negb (off a)) o).
Proof.
  intros ST S H O. pose proof (stored_given _ _ _ ST S) as G. pose proof (stored_on _ _ _ ST S) as N.
  apply heeds_says. unfold says, opt_arg, on_seen in *. rewrite G, N. destruct (assoc n seen) as [m|] eqn:E.
  - destruct (f m) as [a|] eqn:B; [|discriminate]. injection O as <-.
    pose proof (H m a (proj1 (proj1 ST n m E)) B) as K.
    assert (Q : (exists m0, Some m = Some m0 /\ ~ switched_off (rest m0)) <-> off a = false).
    { split; [intros (m0 & Q & Y); injection Q as <-; tauto|intros Y; exists m; tauto]. }
    rewrite Q. simpl. destruct (off a); simpl; intuition congruence.
  - injection O as <-. simpl. split; [intuition congruence|]. split; split; try discriminate; try (intros (m & Q & _); discriminate).
    intros [Q _]. congruence.
Qed.

(** ** What [serde] says *)
Record serde_votes (cs : list (list tok)) (o : option serde) : Prop := {
  sv_on : heeds (word "serde" cs) (option_map (fun w => negb (se_off w)) o);
  sv_ser : heeds (within "serde" (word "serialize") cs) (CtxModel.obind o se_serialize);
  sv_de : heeds (within "serde" (word "deserialize") cs) (CtxModel.obind o se_deserialize);
  sv_vis : tells (shown_in "serde" cs) (option_map pub_tok (CtxModel.obind o (fun w => public_mode (se_public w) (se_private w))))
}.
Lemma serde_voted cs seen o : stored cs seen -> opt_arg seen "serde" serde_arg = Some o -> serde_votes cs o.
Proof.
  intros ST O. destruct (carried _ _ _ _ _ _ ST (eq_refl : segment_ok "serde" = true) serde_carries O) as (bs & sn & OP & SB & H).
  constructor.
  - apply (stored_honest cs seen "serde" serde_arg se_off o ST eq_refl serde_honest O).
  - apply (word_within "serde" cs bs sn "serialize" _ OP SB eq_refl). destruct o as [w|]; simpl; [apply H|subst sn; reflexivity].
  - apply (word_within "serde" cs bs sn "deserialize" _ OP SB eq_refl). destruct o as [w|]; simpl; [apply H|subst sn; reflexivity].
  - apply (tells_inside "serde" cs bs shown _ OP shown_nil). intros v. destruct o as [w|].
    + destruct H as (_ & _ & _ & H1 & H2). apply (shown_mode bs sn _ _ SB H1 H2).
    + subst sn. apply (shown_mode bs [] None None SB); reflexivity.
Qed.
Lemma heeds_not p v : heeds p v -> heeds (negated p) (option_map negb v).
Proof. unfold heeds, negated. destruct v as [[]|]; simpl; tauto. Qed.
Section Votes.
  Variables (cs : list (list tok)) (o : option serde).
  Hypothesis V : serde_votes cs o.
  Lemma w_direction_ser : obool_or (CtxModel.obind o serde_needs_serialize) true = true <-> decide (direction "serialize" "deserialize" cs) True.
  Proof.
    replace (CtxModel.obind o serde_needs_serialize) with (first_some [CtxModel.obind o se_serialize; option_map negb (CtxModel.obind o se_deserialize)]).
    - apply decide_first; [|tauto]. constructor; [apply (sv_ser _ _ V)|]. constructor; [apply heeds_not, (sv_de _ _ V)|constructor].
    - destruct o as [w|]; [|reflexivity]. simpl. unfold serde_needs_serialize. destruct (se_serialize w), (se_deserialize w); reflexivity.
  Qed.
  Lemma w_direction_de : obool_or (CtxModel.obind o serde_needs_deserialize) true = true <-> decide (direction "deserialize" "serialize" cs) True.
  Proof.
    replace (CtxModel.obind o serde_needs_deserialize) with (first_some [CtxModel.obind o se_deserialize; option_map negb (CtxModel.obind o se_serialize)]).
    - apply decide_first; [|tauto]. constructor; [apply (sv_de _ _ V)|]. constructor; [apply heeds_not, (sv_ser _ _ V)|constructor].
    - destruct o as [w|]; [|reflexivity]. simpl. unfold serde_needs_deserialize. destruct (se_serialize w), (se_deserialize w); reflexivity.
  Qed.
  Lemma w_shut : shut cs <-> CtxModel.obind o se_serialize = Some false /\ CtxModel.obind o se_deserialize = Some false.
  Proof.
    pose proof (sv_ser _ _ V) as S. pose proof (sv_de _ _ V) as D. unfold shut, heeds, negated in *. cbn [decide fst snd] in *.
    destruct (CtxModel.obind o se_serialize) as [[]|], (CtxModel.obind o se_deserialize) as [[]|]; split; intros H; try (split; reflexivity);
      try (destruct H; discriminate); tauto.
  Qed.
  Lemma w_serde_on : match o with Some w => unwrap_or (serde_is_serde w) true | None => false end = true <-> on_in "serde" cs /\ ~ shut cs.
  Proof.
    rewrite w_shut. pose proof (sv_on _ _ V) as O. pose proof (on_given "serde" cs) as G. unfold heeds, word in O. cbn [fst snd] in O.
    destruct o as [w|]; simpl in *; [|intuition discriminate]. unfold serde_is_serde.
    destruct (se_off w); simpl in *; [intuition discriminate|].
    destruct (se_serialize w) as [[]|], (se_deserialize w) as [[]|]; simpl; intuition discriminate.
  Qed.
  Lemma w_field_on : obool_or (CtxModel.obind o serde_is_serde) true = true <-> ~ (given_in "serde" cs /\ ~ on_in "serde" cs) /\ ~ shut cs.
  Proof.
    rewrite w_shut. pose proof (sv_on _ _ V) as O. pose proof (on_given "serde" cs) as G. unfold heeds, word in O. cbn [fst snd] in O.
    destruct o as [w|]; simpl in *; [|intuition discriminate]. unfold serde_is_serde.
    destruct (se_off w); simpl in *; [intuition discriminate|].
    destruct (se_serialize w) as [[]|], (se_deserialize w) as [[]|]; simpl; intuition discriminate.
  Qed.
End Votes.

(** ** The name of the shadow *)
Lemma serde_called m w : meta_ok m -> serde_arg m = Some w -> forall t, value_of (se_shadow_name w) = Some t <-> shadow_in t (rest m).
Proof.
  intros M H t. unfold serde_arg in H. destruct m as [p|p d ts|p v]; simpl in *; [| |discriminate].
  - injection H as <-. simpl. split; [discriminate|]. intros (d & ts & bs & E & _). discriminate.
  - unfold extract_literals in H. destruct (parse_meta_list ts) as [items|] eqn:P; [|discriminate]. cbn [obind] in H.
    destruct (accepted_arguments ts items P) as (bs & AR & AS).
    destruct (collect serde_names [] (non_literals items)) as [seen|] eqn:C; [|discriminate]. cbn [obind] in H.
    destruct (linked serde_names serde_table [On "public" "private"] eq_refl bs items seen AS C) as (PR & L1 & _ & L3).
    match type of H with obind ?X _ = _ => destruct X as [x|] eqn:E; [|discriminate] end. cbn [obind] in H.
    assert (NM : opt_arg seen "shadow_name" string_arg = Some (se_shadow_name x)).
    { revert E. repeat match goal with |- obind ?y _ = Some _ -> _ => destruct y eqn:?; [cbn [obind]|discriminate] end.
      intros E. injection E as <-. reflexivity. }
    clear E. destruct (literals items) as [|s ls] eqn:L.
    + injection H as <-. pose proof (no_text _ _ AS L) as NT. unfold opt_arg in NM.
      destruct (assoc "shadow_name" seen) as [m|] eqn:Q.
      * destruct (string_arg m) as [sa|] eqn:SA; [|discriminate]. injection NM as NM. rewrite <- NM. simpl.
        rewrite (string_named m sa (proj1 (PR _ _ Q)) SA t). destruct (L1 _ _ Q) as (b & I & _ & X). split.
        -- intros W. exists d, ts, bs. split; [reflexivity|]. split; [exact AR|]. right. split; [exact NT|]. exists b, (rest m). auto.
        -- intros (d' & ts' & bs' & Y & A' & W). injection Y as <- <-. rewrite <- (arguments_fun _ _ _ AR A') in W.
           destruct W as [(b' & I' & W)|(_ & b' & q & I' & X' & W)].
           ++ exfalso. apply (NT _ I'). destruct (text_shape _ _ W) as (s & -> & LS).
              destruct (lit_str_quote _ _ LS) as (r & -> & _). exists r. reflexivity.
           ++ destruct (L3 "shadow_name" b' q eq_refl I' X') as (m' & Q' & <-). rewrite Q in Q'. injection Q' as <-. exact W.
      * injection NM as NM. rewrite <- NM. simpl. split; [discriminate|].
        intros (d' & ts' & bs' & Y & A' & W). injection Y as <- <-. rewrite <- (arguments_fun _ _ _ AR A') in W.
        destruct W as [(b' & I' & W)|(_ & b' & q & I' & X' & W)].
        -- exfalso. apply (NT _ I'). destruct (text_shape _ _ W) as (s & -> & LS).
           destruct (lit_str_quote _ _ LS) as (r & -> & _). exists r. reflexivity.
        -- destruct (L3 "shadow_name" b' q eq_refl I' X') as (m' & Q' & _). congruence.
    + destruct (literal_name (s :: ls)) as [n|] eqn:LN; [|discriminate]. cbn [obind] in H. injection H as <-. simpl.
      destruct ls as [|s' ls]; [|discriminate]. simpl in LN. destruct (lit_str s) as [u|] eqn:U; [|discriminate]. injection LN as <-.
      pose proof (one_text bs items s u AS L U) as TX. unfold strarg_value. simpl. split.
      * intros Y. injection Y as <-. exists d, ts, bs. split; [reflexivity|]. split; [exact AR|]. left. apply TX. reflexivity.
      * intros (d' & ts' & bs' & Y & A' & W). injection Y as <- <-. rewrite <- (arguments_fun _ _ _ AR A') in W.
        destruct W as [W|(N & _)]; [apply TX in W; congruence|]. exfalso.
        destruct (proj2 (TX u) eq_refl) as (b & I & W). apply (N b I). destruct (text_shape _ _ W) as (s1 & -> & LS).
        destruct (lit_str_quote _ _ LS) as (r & -> & _). exists r. reflexivity.
Qed.

(** ** Struct and fields *)
Section Context.
  Variables (ft : features) (c : sctx) (ss : list (list tok)).
  Hypothesis HS : struct_as ft ss (c_args c).
  Lemma struct_serde : serde_votes ss (s_serde (c_args c)).
  Proof.
    destruct (struct_stored _ _ _ HS) as (seen & ST & S). pose proof (sargs_of_inv _ _ S) as Q.
    apply (serde_voted ss seen _ ST). tauto.
  Qed.
  Theorem w_with_serde : s_is_serde (c_args c) = true <-> with_serde ss.
  Proof. apply (w_serde_on _ _ struct_serde). Qed.
  Lemma on_given_serde : with_serde ss -> exists w, s_serde (c_args c) = Some w.
  Proof. rewrite <- w_with_serde. unfold s_is_serde. destruct (s_serde (c_args c)) as [w|]; [eauto|discriminate]. Qed.
  Lemma needs_ser : with_serde ss -> s_needs_serialize (c_args c) = obool_or (CtxModel.obind (s_serde (c_args c)) serde_needs_serialize) true.
  Proof. intros W. destruct (on_given_serde W) as (w & E). unfold s_needs_serialize. rewrite E. reflexivity. Qed.
  Lemma needs_de : with_serde ss -> s_needs_deserialize (c_args c) = obool_or (CtxModel.obind (s_serde (c_args c)) serde_needs_deserialize) true.
  Proof. intros W. destruct (on_given_serde W) as (w & E). unfold s_needs_deserialize. rewrite E. reflexivity. Qed.
  Theorem w_writes : into_shadow_emitted c = true <-> writes ss.
  Proof.
    unfold into_shadow_emitted, writes. rewrite andb_true_iff, w_with_serde. split; intros [A B]; (split; [exact A|]);
      [rewrite (needs_ser A) in B; apply (w_direction_ser _ _ struct_serde), B|rewrite (needs_ser A); apply (w_direction_ser _ _ struct_serde), B].
  Qed.
  Theorem w_reads : from_shadow_emitted c = true <-> reads ss.
  Proof.
    unfold from_shadow_emitted, reads. rewrite andb_true_iff, w_with_serde. split; intros [A B]; (split; [exact A|]);
      [rewrite (needs_de A) in B; apply (w_direction_de _ _ struct_serde), B|rewrite (needs_de A); apply (w_direction_de _ _ struct_serde), B].
  Qed.
  Theorem w_derives d : In d (serde_derives c) <-> (d = "Serialize" /\ writes ss) \/ (d = "Deserialize" /\ reads ss).
  Proof.
    rewrite <- w_writes, <- w_reads. unfold serde_derives, into_shadow_emitted, from_shadow_emitted.
    destruct (s_is_serde (c_args c)), (s_needs_serialize (c_args c)), (s_needs_deserialize (c_args c)); simpl; intuition (try discriminate; auto).
  Qed.
  Theorem w_through d : In d (serde_through c) <-> (d = "into" /\ writes ss) \/ (d = "from" /\ reads ss).
  Proof.
    rewrite <- w_writes, <- w_reads. unfold serde_through, into_shadow_emitted, from_shadow_emitted.
    destruct (s_is_serde (c_args c)), (s_needs_serialize (c_args c)), (s_needs_deserialize (c_args c)); simpl; intuition (try discriminate; auto).
  Qed.
  Theorem w_shadow v : shadow_made c = Some v <-> with_serde ss /\ shadow_visible ss v.
  Proof.
    rewrite <- w_with_serde. unfold shadow_made, shadow_visible.
    rewrite (told_first [shown_in "serde" ss] [option_map pub_tok (CtxModel.obind (s_serde (c_args c)) (fun w => public_mode (se_public w) (se_private w)))])
      by (constructor; [apply (sv_vis _ _ struct_serde)|constructor]).
    destruct (s_is_serde (c_args c)) eqn:E; [|intuition discriminate].
    destruct (s_serde (c_args c)) as [w|]; simpl; [destruct (public_mode _ _); simpl|]; intuition congruence.
  Qed.
  Theorem w_shadow_name t : shadow_called ss (c_ident c) t <-> t = shadow_ident c.
  Proof.
    destruct (struct_stored _ _ _ HS) as (seen & ST & S). pose proof (sargs_of_inv _ _ S) as Q.
    assert (O : opt_arg seen "serde" serde_arg = Some (s_serde (c_args c))) by tauto. clear Q.
    assert (N : forall u, CtxModel.obind (s_serde (c_args c)) (fun w => value_of (se_shadow_name w)) = Some u <->
       exists d r, In d ss /\ argument_for "serde" d r /\ shadow_in u r).
    { intros u. unfold opt_arg in O. destruct (assoc "serde" seen) as [m|] eqn:A.
      - destruct (serde_arg m) as [w|] eqn:H; [|discriminate]. injection O as <-. simpl.
        destruct (proj1 ST _ _ A) as (MO & d & I & X). rewrite (serde_called m w MO H u). split.
        + intros W. exists d, (rest m). auto.
        + intros (d' & r & I' & X' & W). destruct (proj2 ST "serde" d' r eq_refl I' X') as (m' & A' & <-). congruence.
      - injection O as <-. split; [discriminate|]. intros (d' & r & I' & X' & W). destruct (proj2 ST "serde" d' r eq_refl I' X') as (m' & A' & _). congruence. }
    assert (E : shadow_ident c = unwrap_or (CtxModel.obind (s_serde (c_args c)) (fun w => value_of (se_shadow_name w))) ("__" ++ c_ident c ++ "Shadow")%string).
    { unfold shadow_ident. destruct (s_serde (c_args c)) as [w|]; simpl; [|reflexivity]. destruct (se_shadow_name w); reflexivity. }
    rewrite E. unfold shadow_called, or_usual. destruct (CtxModel.obind _ _) as [u|]; simpl.
    - assert (NU := proj1 (N u) eq_refl). split.
      + intros [W|[W _]]; [apply N in W; congruence|]. contradiction (W u NU).
      + intros ->. left. exact NU.
    - split.
      + intros [W|[_ W]]; [apply N in W; discriminate|exact W].
      + intros ->. right. split; [|reflexivity]. intros u W. apply N in W. discriminate.
  Qed.

  Section OneField.
    Variables (x : source) (f : field).
    Hypothesis R : read_as ft x f.
    Lemma field_serde : serde_votes (so_args x) (f_serde f).
    Proof.
      destruct (field_stored _ _ _ R) as (seen & f0 & ST & (i & v & t & a & S) & G).
      pose proof (field_of_inv _ _ _ _ _ _ S) as Q. apply (serde_voted _ seen _ ST).
      replace (f_serde f) with (f_serde f0) by intuition congruence. tauto.
    Qed.
    Theorem w_takes_part : is_serde c f = true <-> takes_part ss x.
    Proof.
      unfold is_serde, takes_part, f_is_skipped. rewrite !andb_true_iff, negb_true_iff, w_with_serde.
      change (f_is_serde f) with (CtxModel.obind (f_serde f) serde_is_serde). rewrite (w_field_on _ _ field_serde), <- (f_skipped ft x f R), not_true_iff_false. tauto.
    Qed.
    Theorem w_written_out : is_serde c f && needs_serialize c f = true <-> written_out ss x.
    Proof.
      unfold written_out. rewrite andb_true_iff, w_takes_part. split; intros [A B]; (split; [exact A|]).
      - apply (w_direction_ser _ _ field_serde). destruct A as [A _]. apply w_with_serde in A. unfold needs_serialize in B. rewrite A in B. exact B.
      - apply (w_direction_ser _ _ field_serde) in B. destruct A as [A _]. apply w_with_serde in A. unfold needs_serialize. rewrite A. exact B.
    Qed.
    Theorem w_read_in : is_serde c f && needs_deserialize c f = true <-> read_in ss x.
    Proof.
      unfold read_in. rewrite andb_true_iff, w_takes_part. split; intros [A B]; (split; [exact A|]).
      - apply (w_direction_de _ _ field_serde). destruct A as [A _]. apply w_with_serde in A. unfold needs_deserialize in B. rewrite A in B. exact B.
      - apply (w_direction_de _ _ field_serde) in B. destruct A as [A _]. apply w_with_serde in A. unfold needs_deserialize. rewrite A. exact B.
    Qed.
    Lemma w_shadow_type t : shadow_as ss x t <-> t = shadow_type (cfg_of c f).
    Proof.
      pose proof (w_lazy ft c ss HS x f R) as L. pose proof (w_optional ft c ss HS x f R) as O. unfold shadow_type, serde_optional. simpl.
      split.
      - intros W. destruct W; destruct (is_optional c f), (is_lazy c f); simpl; intuition congruence.
      - intros ->. destruct (is_optional c f), (is_lazy c f); simpl; constructor; intuition congruence.
    Qed.
    Section Listed.
      Hypothesis D : NoDup (map f_ident (c_input_fields c)).
      Hypothesis I : In f (c_input_fields c).
      Lemma serde_not_skipped g : is_serde c g = true -> f_skip g = false.
      Proof. unfold is_serde, f_is_skipped. destruct (f_skip g); [discriminate|reflexivity]. Qed.
      Lemma listed (P : field -> bool) : (forall g, P g = true -> f_skip g = false) ->
        (In (f_ident f) (map f_ident (filter P (all_fields c))) <-> P f = true).
      Proof.
        intros H. rewrite (same_ident c f D I).
        - rewrite filter_In. split; [tauto|]. intros Y. split; [|exact Y]. unfold all_fields. apply in_or_app. auto.
        - intros g G. apply filter_In in G. split; [tauto|]. apply H. tauto.
      Qed.
      Theorem w_checked : In (f_ident f) (builder_checked c) <-> demanded ss x.
      Proof.
        rewrite <- (w_value_required ft c ss HS x f R). unfold builder_checked, builder_input.
        assert (E : forall l, filter (fun g => value_required (cfg_of c g)) (filter (fun g => negb (f_is_skipped g)) l) =
                    filter (fun g => value_required (cfg_of c g) && negb (f_is_skipped g)) l).
        { clear. induction l as [|g l IH]; simpl; [reflexivity|]. destruct (negb (f_is_skipped g)); simpl; rewrite IH;
            destruct (value_required (cfg_of c g)); reflexivity. }
        rewrite E, listed; [rewrite andb_true_iff, negb_true_iff; reflexivity|].
        intros g G. apply andb_true_iff in G. destruct G as [_ G]. apply negb_true_iff in G. exact G.
      Qed.
      Theorem w_in_shadow t : In (f_ident f, t) (shadow_fields c) <-> takes_part ss x /\ shadow_as ss x t.
      Proof.
        rewrite w_shadow_type, <- w_takes_part. unfold shadow_fields, shadow_input. split.
        - intros J. apply in_map_iff in J. destruct J as (g & J & G). injection J as J E.
          assert (K : In (f_ident f) (map f_ident (filter (is_serde c) (all_fields c)))) by (rewrite <- J; apply in_map; exact G).
          apply (listed _ serde_not_skipped) in K. split; [exact K|]. rewrite <- E.
          assert (EQ : g = f); [|subst g; reflexivity].
          apply filter_In in G. destruct G as [G S]. unfold all_fields in G. apply in_app_or in G. destruct G as [G|G].
          + exfalso. unfold extra_fields in G. destruct (s_is_ref_counted (c_args c)); [|destruct G].
            destruct (myself_field c); [|destruct G]. destruct G as [<-|[]]. discriminate S.
          + revert D I G J. clear. induction (c_input_fields c) as [|h l IH]; [intros _ []|]. simpl. intros D I G J.
            inversion D as [|h' l' N D']; subst. destruct I as [->|I'], G as [->|G']; auto; exfalso; apply N.
            * rewrite <- J. apply in_map. exact G'.
            * rewrite J. apply in_map. exact I'.
        - intros [S ->]. apply in_map_iff. exists f. split; [reflexivity|]. apply filter_In. split; [|exact S].
          unfold all_fields. apply in_or_app. auto.
      Qed.
      Theorem w_into_literal : In (f_ident f) (lit_idents (into_shadow_literal c)) <-> written_out ss x.
      Proof.
        rewrite <- w_written_out. unfold lit_idents, into_shadow_literal, serialized. simpl. rewrite map_map. simpl. apply listed.
        intros g G. apply andb_true_iff in G. apply serde_not_skipped. tauto.
      Qed.
      Theorem w_from_literal : In (f_ident f) (lit_idents (from_shadow_literal c)) <-> read_in ss x.
      Proof.
        rewrite <- w_read_in. unfold lit_idents, from_shadow_literal. simpl. rewrite map_map. simpl. apply listed.
        intros g G. apply andb_true_iff in G. apply serde_not_skipped. tauto.
      Qed.
      Theorem w_built : In (f_ident f) (map fst (into_shadow_inits c)) <-> written_out ss x /\ lazily ss x.
      Proof.
        rewrite <- w_written_out, <- (w_lazy ft c ss HS x f R), <- andb_true_iff. unfold into_shadow_inits, serialized. rewrite map_map. simpl.
        assert (E : forall l, filter (is_lazy c) (filter (fun g => is_serde c g && needs_serialize c g) l) =
                    filter (fun g => (is_serde c g && needs_serialize c g) && is_lazy c g) l).
        { clear. induction l as [|g l IH]; simpl; [reflexivity|]. destruct (is_serde c g && needs_serialize c g); simpl; rewrite IH;
            destruct (is_lazy c g); reflexivity. }
        rewrite E. apply listed. intros g G. rewrite !andb_true_iff in G. apply serde_not_skipped. tauto.
      Qed.
    End Listed.
    (** A field that takes part goes at least one way. *)
    Theorem w_some_way : takes_part ss x -> written_out ss x \/ read_in ss x.
    Proof.
      intros T. rewrite <- w_written_out, <- w_read_in. apply w_takes_part in T. rewrite T. simpl.
      unfold is_serde, f_is_serde in T. unfold needs_serialize, needs_deserialize. destruct (f_is_skipped f); [discriminate|].
      destruct (s_is_serde (c_args c)); [|discriminate]. simpl in T. unfold f_needs_serialize, f_needs_deserialize.
      destruct (f_serde f) as [w|]; simpl in *; [|auto]. unfold serde_is_serde in T. destruct (se_off w); [discriminate|].
      unfold serde_needs_serialize, serde_needs_deserialize. destruct (se_serialize w) as [[]|], (se_deserialize w) as [[]|]; simpl in *; auto.
    Qed.
    (** The attribute of the field in the shadow. *)
    Theorem w_skips : takes_part ss x -> forall a b, shadow_skip c f = (a, b) ->
      (a = true <-> ~ written_out ss x) /\ (b = true <-> ~ read_in ss x).
    Proof.
      intros T a b. pose proof (w_some_way T) as O. revert O. rewrite <- w_written_out, <- w_read_in.
      pose proof T as T'. apply w_takes_part in T'. rewrite T'.
      unfold shadow_skip. destruct T as [T _]. apply w_with_serde in T. rewrite T, T'. simpl.
      destruct (needs_serialize c f), (needs_deserialize c f); simpl; intros O E; injection E as <- <-; intuition congruence.
    Qed.
  End OneField.
  (** Default of the shadow. *)
  Theorem w_shadow_default all : Forall2 (read_as ft) all (c_input_fields c) -> (shadow_default_impl c = true <-> with_serde ss /\ with_default ss all).
  Proof. intros HF. unfold shadow_default_impl. rewrite andb_true_iff, w_with_serde, (w_default ft c ss all HS HF). tauto. Qed.
End Context.
