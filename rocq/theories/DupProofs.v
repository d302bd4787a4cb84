(** Proofs about Clone, PartialEq and Debug of objects. *)
From Coq Require Import List Bool String Arith Lia.
From Verif Require Import ProxyTypes ArgsModel CtxModel RustAst RustSem CommonGen StructGen CodegenSpec FieldSpec FieldRun FieldProofs FieldSeq FieldStruct GuardCell
  ObjectSpec SerdeModel LifeSpec LifeModel LifeProofs LifeRecord SessionSpec SessionModel SessionProofs DupSpec DupModel.
Import ListNotations.
Open Scope list_scope.

(** An outcome that means the same as another. *)
Definition as_told {A B} (R : A -> B -> Prop) (x : option (upshot B)) (y : upshot A) : Prop :=
  match y with
  | Gives a => exists b, x = Some (Gives b) /\ R a b
  | Breaks => x = Some Breaks
  | Hangs => x = Some Hangs
  end.

Section Fields.
Variables (c : sctx) (fs : list field).
Hypothesis Sk : forall f, In f fs -> f_is_skipped f = false.
Notation views := (map (view_of c) fs).

Lemma told_of f iu u : f_is_skipped f = false -> stands c f iu u -> exists t, field_type c f = GOk t /\ fits t (view_of c f) /\
  rep t (u_val u) = Some (fld (i_st iu)) /\ wr (i_st iu) = writing (u_guards u) /\ (v_disc (view_of c f) = Direct -> wr (i_st iu) = false).
Proof.
  intros Sf (t & T & [(R & _ & W & _) _ _ D _ _]). exists t. split; [exact T|]. split; [exact (field_fits c f t Sf T)|]. split; [exact R|].
  split; [exact W|]. intro E. cbn in W. rewrite (D E) in W. exact W.
Qed.
Lemma clone_told f iu u : f_is_skipped f = false -> stands c f iu u -> as_told (keeps c f) (clone_field (i_st iu)) (look (view_of c f) u).
Proof.
  intros Sf S0. destruct (told_of f iu u Sf S0) as (t & T & F & R & W & D). unfold look, clone_field, as_told. rewrite <- W. clear W.
  destruct F as [v H1 H2|v H1 H2|a v H1 H2|v H1 H2|v H1 H2|a v H1 H2|g v H1 H2|[|] b g v H1 H2]; rewrite H2 in *; cbn in R;
    destruct (u_val u) as [n|] eqn:U; cbn in R; try discriminate R; injection R as R; rewrite <- R in *;
    destruct (wr (i_st iu)); try reflexivity; try (specialize (D eq_refl); discriminate D);
    eexists; (split; [reflexivity|eexists; split; [exact T|reflexivity]]).
Qed.
Lemma eq_told f iu u ju w : f_is_skipped f = false -> stands c f iu u -> stands c f ju w -> v_disc (view_of c f) <> Solo ->
  as_told eq (eq_field (i_st iu) (i_st ju)) (after (look (view_of c f) u) (fun a => after (look (view_of c f) w) (fun b => Gives (same_content a b)))).
Proof.
  intros Sf S0 S1 NS. destruct (told_of f iu u Sf S0) as (t & T & F & R & W & D). destruct (told_of f ju w Sf S1) as (t' & T' & _ & R' & W' & D').
  rewrite T in T'. injection T' as <-. unfold look, eq_field, as_told. rewrite <- W, <- W'. clear W W'.
  destruct F as [v H1 H2|v H1 H2|a v H1 H2|v H1 H2|v H1 H2|a v H1 H2|g v H1 H2|[|] b g v H1 H2]; rewrite H2 in *; try (destruct (NS eq_refl)); cbn in R, R';
    destruct (u_val u) as [n|] eqn:U; cbn in R; try discriminate R; injection R as R; rewrite <- R in *;
    destruct (u_val w) as [m|] eqn:U'; cbn in R'; try discriminate R'; injection R' as R'; rewrite <- R' in *;
    try rewrite Bool.eqb_reflx;
    destruct (wr (i_st iu)), (wr (i_st ju)); try reflexivity; try (specialize (D eq_refl); discriminate D); try (specialize (D' eq_refl); discriminate D');
    cbn; eexists; (split; [reflexivity|reflexivity]).
Qed.
Lemma fmt_told f iu u : f_is_skipped f = false -> stands c f iu u -> as_told eq (fmt_field (i_st iu)) (glance (view_of c f) u).
Proof.
  intros Sf S0. destruct (told_of f iu u Sf S0) as (t & T & F & R & W & D). unfold glance, fmt_field, as_told. rewrite <- W. clear W.
  destruct F as [v H1 H2|v H1 H2|a v H1 H2|v H1 H2|v H1 H2|a v H1 H2|g v H1 H2|[|] b g v H1 H2]; rewrite H2 in *; try rewrite H1; cbn in R;
    destruct (u_val u) as [n|] eqn:U; cbn in R; try discriminate R; injection R as R; rewrite <- R in *;
    destruct (wr (i_st iu)); try reflexivity; try (specialize (D eq_refl); discriminate D);
    eexists; (split; [reflexivity|reflexivity]).
Qed.
End Fields.

(** ** All fields *)
Lemma stand_cons c f fs ius us : stand c (f :: fs) ius us -> exists iu ius' u us', ius = iu :: ius' /\ us = u :: us' /\ stands c f iu u /\ stand c fs ius' us'.
Proof.
  intros (A & B & C). destruct ius as [|iu ius]; [discriminate A|]. destruct us as [|u us]; [discriminate B|].
  exists iu, ius, u, us. split; [reflexivity|]. split; [reflexivity|]. split; [exact (C 0 f iu u eq_refl eq_refl eq_refl)|].
  split; [cbn in A; lia|]. split; [cbn in B; lia|]. intros i g x y G X Y. exact (C (S i) g x y G X Y).
Qed.
Lemma stand_nil c ius us : stand c [] ius us -> ius = [] /\ us = [].
Proof. intros (A & B & _). destruct ius; [|discriminate A]. destruct us; [|discriminate B]. auto. Qed.
Theorem clone_all c : forall fs ius us, (forall f, In f fs -> f_is_skipped f = false) -> stand c fs ius us ->
  as_told (stores c fs) (impl_clone ius) (spec_copy (map (view_of c) fs) us).
Proof.
  induction fs as [|f fs IH]; intros ius us Sk St.
  - apply stand_nil in St as [-> ->]. cbn. eexists. split; [reflexivity|exact I].
  - apply stand_cons in St as (iu & ius' & u & us' & -> & -> & S0 & St). cbn [map spec_copy impl_clone].
    pose proof (clone_told c f iu u (Sk f (or_introl eq_refl)) S0) as H. pose proof (IH ius' us' (fun g I => Sk g (or_intror I)) St) as H2.
    destruct (look (view_of c f) u) as [k| |]; cbn in H |- *; [|rewrite H; reflexivity|rewrite H; reflexivity].
    destruct H as (w & -> & K). destruct (spec_copy (map (view_of c) fs) us') as [ks| |]; cbn in H2 |- *; [|rewrite H2; reflexivity|rewrite H2; reflexivity].
    destruct H2 as (ws & -> & Ks). exists (w :: ws). split; [reflexivity|]. split; [exact K|exact Ks].
Qed.
Theorem eq_all c : forall fs ius us jus ws, (forall f, In f fs -> f_is_skipped f = false) -> (forall f, In f fs -> v_disc (view_of c f) <> Solo) ->
  stand c fs ius us -> stand c fs jus ws -> as_told eq (impl_eq ius jus) (spec_equal (map (view_of c) fs) us ws).
Proof.
  induction fs as [|f fs IH]; intros ius us jus ws Sk NS St St'.
  - apply stand_nil in St as [-> ->]. apply stand_nil in St' as [-> ->]. cbn. eexists. split; reflexivity.
  - apply stand_cons in St as (iu & ius' & u & us' & -> & -> & S0 & St). apply stand_cons in St' as (ju & jus' & w & ws' & -> & -> & S1 & St').
    cbn [map spec_equal impl_eq].
    pose proof (eq_told c f iu u ju w (Sk f (or_introl eq_refl)) S0 S1 (NS f (or_introl eq_refl))) as H.
    pose proof (IH ius' us' jus' ws' (fun g I => Sk g (or_intror I)) (fun g I => NS g (or_intror I)) St St') as H2.
    destruct (look (view_of c f) u) as [a| |]; cbn in H |- *; [|rewrite H; reflexivity|rewrite H; reflexivity].
    destruct (look (view_of c f) w) as [b| |]; cbn in H |- *; [|rewrite H; reflexivity|rewrite H; reflexivity].
    destruct H as (r & -> & <-). destruct (same_content a b); [exact H2|]. cbn. eexists. split; reflexivity.
Qed.
Theorem fmt_all c : forall fs ius us, (forall f, In f fs -> f_is_skipped f = false) -> stand c fs ius us ->
  as_told eq (impl_fmt ius) (spec_show (map (view_of c) fs) us).
Proof.
  induction fs as [|f fs IH]; intros ius us Sk St.
  - apply stand_nil in St as [-> ->]. cbn. eexists. split; reflexivity.
  - apply stand_cons in St as (iu & ius' & u & us' & -> & -> & S0 & St). cbn [map spec_show impl_fmt].
    pose proof (fmt_told c f iu u (Sk f (or_introl eq_refl)) S0) as H. pose proof (IH ius' us' (fun g I => Sk g (or_intror I)) St) as H2.
    destruct (glance (view_of c f) u) as [k| |]; cbn in H |- *; [|rewrite H; reflexivity|rewrite H; reflexivity].
    destruct H as (w & -> & <-). destruct (spec_show (map (view_of c) fs) us') as [ks| |]; cbn in H2 |- *; [|rewrite H2; reflexivity|rewrite H2; reflexivity].
    destruct H2 as (ws & -> & <-). eexists. split; reflexivity.
Qed.

(** ** What that means *)
Lemma free_look v u : writing (u_guards u) = false -> look v u = Gives (u_val u).
Proof. unfold look. intros ->. reflexivity. Qed.
(** A copy can be had exactly if nothing is being written. *)
Lemma copy_iff c : forall fs ius us, stand c fs ius us ->
  (forall ks, spec_copy (map (view_of c) fs) us = Gives ks -> ks = map u_val us /\ forall u, In u us -> writing (u_guards u) = false) /\
  ((forall u, In u us -> writing (u_guards u) = false) -> spec_copy (map (view_of c) fs) us = Gives (map u_val us)).
Proof.
  induction fs as [|f fs IH]; intros ius us St.
  - apply stand_nil in St as [-> ->]. cbn. split; [intros ks H; injection H as <-; split; [reflexivity|intros ? []]|reflexivity].
  - apply stand_cons in St as (iu & ius' & u & us' & -> & -> & S0 & St). destruct (IH ius' us' St) as [A B]. cbn [map spec_copy]. split.
    + intros ks H. destruct (look (view_of c f) u) as [k| |] eqn:L; try discriminate H.
      destruct (spec_copy (map (view_of c) fs) us') as [ks'| |] eqn:E; try discriminate H. injection H as <-. destruct (A ks' eq_refl) as [-> F].
      assert (W : writing (u_guards u) = false /\ k = u_val u).
      { unfold look in L. destruct (writing (u_guards u)) eqn:W; [|injection L as <-; auto].
        destruct (v_disc (view_of c f)) eqn:D; try discriminate L. destruct S0 as (t & _ & [_ _ _ Dn _ _]). rewrite (Dn D) in W. discriminate W. }
      destruct W as [W ->]. split; [reflexivity|]. intros x [<-|I]; [exact W|exact (F x I)].
    + intros F. rewrite (free_look _ u (F u (or_introl eq_refl))). cbn. rewrite (B (fun x I => F x (or_intror I))). reflexivity.
Qed.
Lemma same_iff a b : same_content a b = true <-> a = b.
Proof. destruct a as [x|], b as [y|]; cbn; try (split; congruence). rewrite Nat.eqb_eq. split; congruence. Qed.
(** Equal exactly if the contents are. *)
Lemma equal_iff : forall views us ws, List.length us = List.length views -> List.length ws = List.length views ->
  (forall u, In u us -> writing (u_guards u) = false) -> (forall u, In u ws -> writing (u_guards u) = false) ->
  exists b, spec_equal views us ws = Gives b /\ (b = true <-> map u_val us = map u_val ws).
Proof.
  induction views as [|v views IH]; intros [|u us] [|w ws] A B F G; try discriminate A; try discriminate B.
  - exists true. split; [reflexivity|]. split; reflexivity.
  - cbn [spec_equal]. rewrite (free_look v u (F u (or_introl eq_refl))), (free_look v w (G w (or_introl eq_refl))). cbn [after].
    destruct (same_content (u_val u) (u_val w)) eqn:E.
    + apply same_iff in E. destruct (IH us ws ltac:(cbn in A; lia) ltac:(cbn in B; lia) (fun x I => F x (or_intror I)) (fun x I => G x (or_intror I))) as (b & -> & Q).
      exists b. split; [reflexivity|]. cbn. rewrite Q. split; congruence.
    + exists false. split; [reflexivity|]. split; [discriminate|]. cbn. intro H. injection H as H _. apply same_iff in H. congruence.
Qed.
Lemma async_none c f iu ju u w : f_is_skipped f = false -> stands c f iu u -> stands c f ju w -> v_disc (view_of c f) = Solo ->
  eq_field (i_st iu) (i_st ju) = None.
Proof.
  intros Sf S0 S1 D. destruct (told_of c f iu u Sf S0) as (t & T & F & R & _ & _). destruct (told_of c f ju w Sf S1) as (t' & T' & _ & R' & _ & _).
  rewrite T in T'. injection T' as <-.
  destruct F as [v H1 H2|v H1 H2|a v H1 H2|v H1 H2|v H1 H2|a v H1 H2|g v H1 H2|[|] b g v H1 H2]; rewrite H2 in D; try discriminate D.
  cbn in R, R'. injection R as R. injection R' as R'. unfold eq_field. rewrite <- R, <- R'. reflexivity.
Qed.
Lemma show_ends c : forall fs ius us, (forall f, In f fs -> f_is_skipped f = false) -> stand c fs ius us ->
  spec_show (map (view_of c) fs) us <> Breaks /\
  (spec_show (map (view_of c) fs) us = Hangs <-> exists i f u, nth_error fs i = Some f /\ nth_error us i = Some u /\ writing (u_guards u) = true /\ is_lazy_view (view_of c f) = true).
Proof.
  induction fs as [|f fs IH]; intros ius us Sk St.
  - apply stand_nil in St as [-> ->]. cbn. split; [discriminate|]. split; [discriminate|]. intros (i & f & u & F & _). destruct i; discriminate F.
  - apply stand_cons in St as (iu & ius' & u & us' & -> & -> & S0 & St). cbn [map spec_show].
    destruct (IH ius' us' (fun g I => Sk g (or_intror I)) St) as [A B].
    assert (G : (glance (view_of c f) u = Hangs /\ writing (u_guards u) = true /\ is_lazy_view (view_of c f) = true) \/
                ((exists k, glance (view_of c f) u = Gives k) /\ (writing (u_guards u) && is_lazy_view (view_of c f) = false))).
    { destruct (told_of c f iu u (Sk f (or_introl eq_refl)) S0) as (t & T & F & _ & W & D). unfold glance, is_lazy_view. rewrite W in D.
      destruct F as [v H1 H2|v H1 H2|a v H1 H2|v H1 H2|v H1 H2|a v H1 H2|g v H1 H2|[|] b g v H1 H2]; rewrite H1, H2 in *;
        destruct (writing (u_guards u)); try (specialize (D eq_refl); discriminate D); try (left; repeat split; fail); right; split; eauto. }
    destruct G as [(-> & W & L)|((k & ->) & N)]; cbn [after].
    + split; [discriminate|]. split; [|reflexivity]. intros _. exists 0, f, u. auto.
    + assert (E : (exists i g w, nth_error (f :: fs) i = Some g /\ nth_error (u :: us') i = Some w /\ writing (u_guards w) = true /\ is_lazy_view (view_of c g) = true) <->
                  exists i g w, nth_error fs i = Some g /\ nth_error us' i = Some w /\ writing (u_guards w) = true /\ is_lazy_view (view_of c g) = true).
      { split; [|intros (i & Q); exists (S i); exact Q]. intros ([|i] & g & w & Gf & Gu & W & L); [|exists i, g, w; auto].
        injection Gf as <-. injection Gu as <-. rewrite W, L in N. discriminate N. }
      rewrite E, <- B. destruct (spec_show (map (view_of c) fs) us') as [ks| |]; cbn [after]; (split; [congruence|]); split; congruence.
Qed.
