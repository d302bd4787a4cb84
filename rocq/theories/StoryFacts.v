(** What follows for the notes of a field when its history is one of the atomic cell
    (C65, C66). *)
From Coq Require Import List Bool Arith Lia.
From Verif Require Import ProxyTypes AtomicCell TraceSpec AtomicCellFacts MultiSpec StorySpec.
Import ListNotations.

(** ** Counting successes *)

Fixpoint oks (h : list (event nat nat)) : nat :=
  match h with
  | [] => 0
  | EvBuildEnd _ (BOk _) :: h' => S (oks h')
  | _ :: h' => oks h'
  end.
Fixpoint clrs (h : list (event nat nat)) : nat :=
  match h with
  | [] => 0
  | EvCall _ o :: h' => (if clearing o then 1 else 0) + clrs h'
  | _ :: h' => clrs h'
  end.

Lemma oks_app h1 h2 : oks (h1 ++ h2) = oks h1 + oks h2.
Proof. induction h1 as [|e h1 IH]; cbn; auto. destruct e as [| | |? o]; auto. destruct o; cbn; lia. Qed.
Lemma clrs_app h1 h2 : clrs (h1 ++ h2) = clrs h1 + clrs h2.
Proof. induction h1 as [|e h1 IH]; cbn; auto. destruct e; auto. lia. Qed.

Lemma successes_app l1 l2 : successes (l1 ++ l2) = successes l1 + successes l2.
Proof. induction l1 as [|x l1 IH]; cbn; auto. destruct x as [| |? b|]; auto. destruct b; cbn; lia. Qed.
Lemma clears_app l1 l2 : clears (l1 ++ l2) = clears l1 + clears l2.
Proof. induction l1 as [|x l1 IH]; cbn; auto. destruct x as [? o| | |]; auto. destruct o; cbn; lia. Qed.

Lemma successes_notes tag h : forall pend, successes (notes tag pend h) = oks h.
Proof.
  induction h as [|e h IH]; intros pend; cbn; auto.
  destruct e as [a o|a r|a|a b]; cbn; rewrite ?successes_app, ?IH.
  - destruct (noted o); reflexivity.
  - destruct (noted_ret (pend a) r); reflexivity.
  - reflexivity.
  - destruct b; reflexivity.
Qed.
Lemma clears_notes tag h : forall pend, clears (notes tag pend h) = clrs h.
Proof.
  induction h as [|e h IH]; intros pend; cbn; auto.
  destruct e as [a o|a r|a|a b]; cbn; rewrite ?clears_app, ?IH; auto.
  - destruct o; reflexivity.
  - destruct (noted_ret (pend a) r); reflexivity.
Qed.

Notation ncell := (cell nat nat).

Definition waits (c : ncell) (a : aid) : bool :=
  match stat c a with SCalled _ o => clearing o | _ => false end.
Definition vac (c : ncell) : nat :=
  match content c with
  | Some _ => 0
  | None => match building c with
            | Some a => match stat c a with SBuilt _ _ => 0 | _ => 1 end
            | None => 1
            end
  end.
Definition b2n (b : bool) : nat := if b then 1 else 0.

Definition budget (ov : option nat) (t : list (event nat nat)) (c : ncell) : Prop :=
  (building c <> None -> content c = None) /\
  exists P, NoDup P /\ (forall a, In a P <-> waits c a = true) /\
    oks t + vac c + length P <= room ov + clrs t.

Lemma adjust (w w' : aid -> bool) a P : NoDup P -> (forall b, In b P <-> w b = true) ->
  (forall b, b <> a -> w' b = w b) ->
  exists P', NoDup P' /\ (forall b, In b P' <-> w' b = true) /\
    length P' + b2n (w a) = length P + b2n (w' a).
Proof.
  intros N H E. destruct (w a) eqn:Wa, (w' a) eqn:Wa'.
  - exists P. split; auto. split; auto. intros b.
    destruct (Nat.eq_dec b a) as [->|D]; [|rewrite E; auto].
    rewrite H, Wa, Wa'. tauto.
  - assert (Hin : In a P) by now apply H.
    apply in_split in Hin as (P1 & P2 & ->).
    exists (P1 ++ P2). split; [eapply NoDup_remove_1; eauto|]. split.
    + intros b. destruct (Nat.eq_dec b a) as [->|D].
      * rewrite Wa'. split; [|discriminate]. intros Hb. apply NoDup_remove_2 in N. contradiction.
      * rewrite E, <- H by auto. rewrite !in_app_iff. cbn. split; [tauto|].
        intros [Hb|[Hb|Hb]]; auto. congruence.
    + rewrite !app_length. cbn. lia.
  - exists (a :: P). split; [constructor; auto; rewrite H; congruence|]. split; [|cbn; lia].
    intros b. cbn. destruct (Nat.eq_dec b a) as [->|D]; [tauto|].
    rewrite E, <- H by auto. split; [intros [Hb|Hb]; [congruence|auto]|auto].
  - exists P. split; auto. split; auto. intros b.
    destruct (Nat.eq_dec b a) as [->|D]; [|rewrite E; auto].
    rewrite H, Wa, Wa'. tauto.
Qed.

Lemma budget_intro ov t c t' c' a :
  budget ov t c ->
  (building c' <> None -> content c' = None) ->
  (forall b, b <> a -> stat c' b = stat c b) ->
  oks t' + vac c' + b2n (waits c' a) <= clrs t' + vac c + b2n (waits c a) ->
  budget ov (t ++ t') c'.
Proof.
  intros (B & P & N & H & L) B' E I. split; auto.
  destruct (adjust (waits c) (waits c') a P N H) as (P' & N' & H' & L').
  { intros b Hb. unfold waits. now rewrite E. }
  exists P'. split; auto. split; auto. rewrite oks_app, clrs_app. lia.
Qed.

Lemma simple_room h o ov ov' h' r : @simple nat nat h o ov = Some (ov', h', r) ->
  ov' = None -> ov = None \/ clearing o = true.
Proof.
  destruct o; cbn; try discriminate; try (intros [= <- <- <-]; auto; discriminate).
  - destruct ov; [intros [= <- <- <-]; discriminate|discriminate].
  - destruct ov; [intros [= <- <- <-]; discriminate|discriminate].
Qed.

Lemma budget_step k ov t c t' c' :
  bld_ok c -> budget ov t c -> cstep k c t' c' -> budget ov (t ++ t') c'.
Proof.
  intros BO BU H. pose proof (proj1 BU) as B.
  assert (Idle : forall a x, stat c a = x -> match x with SBuilding _ | SBuilt _ _ => False | _ => True end ->
            building c = None \/ exists b, building c = Some b /\ b <> a).
  { intros a x Hx Kx. destruct (building c) as [b|] eqn:Eb; auto. right. exists b. split; auto.
    intros ->. pose proof (BO a) as Ba. rewrite Hx in Ba. apply Ba in Eb. destruct x; contradiction. }
  assert (Busy : forall a x, stat c a = x -> match x with SBuilding _ | SBuilt _ _ => True | _ => False end ->
            building c = Some a /\ content c = None).
  { intros a x Hx Kx. assert (Eb : building c = Some a).
    { apply BO. rewrite Hx. exact Kx. }
    split; auto. apply B. congruence. }
  inversion H; subst;
    (eapply (budget_intro _ _ _ _ _ a); [exact BU| |intros b Hb; cbn; apply Nat.eqb_neq in Hb; now rewrite Hb|]);
    cbn; try (exact B); try congruence; unfold vac, waits; cbn; rewrite ?Nat.eqb_refl;
    match goal with Hs : stat c _ = _ |- _ =>
      rewrite ?Hs; pose proof (Idle _ _ Hs) as Id; pose proof (Busy _ _ Hs) as Bu; cbn in Id, Bu end.
  - destruct (Id Logic.I) as [->|(b & -> & Nb)]; [destruct (content c), (clearing o); cbn; lia|].
    apply Nat.eqb_neq in Nb. rewrite Nb. destruct (content c), (clearing o); cbn; try lia; destruct (stat c b); cbn; lia.
  - destruct (Id Logic.I) as [->|(b & -> & Nb)]; [destruct (content c); cbn; lia|].
    apply Nat.eqb_neq in Nb. rewrite Nb. cbn. destruct (content c); cbn; [lia|]. destruct (stat c b); cbn; lia.
  - intros Hb. destruct H2 as [H2| ->]; [congruence|auto].
  - match goal with Hq : simple _ _ _ = Some _ |- _ => pose proof (simple_room _ _ _ _ _ _ Hq) as SR end.
    assert (X : match ov0 with None => 1 | Some _ => 0 end <=
                match content c with None => 1 | Some _ => 0 end + b2n (clearing o)).
    { destruct ov0; [lia|]. destruct (SR eq_refl) as [->|Cl]; [lia|]. rewrite Cl. cbn. lia. }
    destruct (Id Logic.I) as [Eb|(b & Eb & Nb)].
    + rewrite Eb. destruct ov0, (content c); cbn in *; lia.
    + rewrite Eb. apply Nat.eqb_neq in Nb. rewrite Nb.
      destruct H2 as [H2| ->]; [congruence|]. destruct (content c); cbn; [lia|]. destruct (stat c b); cbn; lia.
  - destruct (Id Logic.I) as [->|(b & -> & Nb)]; [destruct (content c); cbn; lia|].
    apply Nat.eqb_neq in Nb. rewrite Nb. cbn. destruct (content c); cbn; [lia|]. destruct (stat c b); cbn; lia.
  - destruct (content c); [discriminate|]. match goal with Hq : building c = None |- _ => rewrite Hq end. cbn. lia.
  - destruct (Bu Logic.I) as [-> ->]. rewrite Nat.eqb_refl.
    match goal with Hs : stat c _ = _ |- _ => rewrite ?Hs end. cbn. lia.
  - destruct (Bu Logic.I) as [-> ->]. match goal with Hs : stat c _ = _ |- _ => rewrite ?Hs end. cbn. lia.
  - destruct (Bu Logic.I) as [-> ->]. match goal with Hs : stat c _ = _ |- _ => rewrite ?Hs end. cbn. lia.
  - destruct (Bu Logic.I) as [-> ->]. cbn. lia.
  - destruct (Id Logic.I) as [->|(b & -> & Nb)]; [destruct (content c); cbn; lia|].
    apply Nat.eqb_neq in Nb. rewrite Nb. cbn. destruct (content c); cbn; [lia|]. destruct (stat c b); cbn; lia.
  - destruct (Id Logic.I) as [->|(b & -> & Nb)]; [destruct (content c); cbn; lia|].
    apply Nat.eqb_neq in Nb. rewrite Nb. cbn. destruct (content c); cbn; [lia|]. destruct (stat c b); cbn; lia.
  - destruct (Bu Logic.I) as [-> ->]. match goal with Hs : stat c _ = _ |- _ => rewrite ?Hs end. cbn. lia.
Qed.

Lemma budget_all k ov t c : cruns k (cell_init ov) t c -> budget ov t c /\ bld_ok c.
Proof.
  intros H. revert t c H. apply (cruns_ind_snoc k (fun t c => budget ov t c /\ bld_ok c)).
  - split; [|exact (bld_all k ov [] _ (cr_nil k _))]. split; [cbn; congruence|].
    exists []. split; [constructor|]. split; [split; [intros []|discriminate]|].
    unfold vac. cbn. destruct ov; cbn; lia.
  - intros t c t' c' _ [BU BO] S. split; [eapply budget_step; eauto|eapply bld_step; eauto].
Qed.

Theorem few_successes k ov h tag pend : cell_history k ov h ->
  successes (notes tag pend h) <= room ov + clears (notes tag pend h).
Proof.
  intros [c R]. rewrite successes_notes, clears_notes.
  destruct (budget_all _ _ _ _ R) as ((_ & P & _ & _ & L) & _). lia.
Qed.

(** ** From notes back to events *)

Lemma notes_split tag h : forall pend N1 x N2, notes tag pend h = N1 ++ x :: N2 ->
  exists h1 e h2, h = h1 ++ e :: h2 /\ notes tag pend h1 = N1 /\
    notes tag (last_calls pend h1) [e] = [x].
Proof.
  induction h as [|e h IH]; intros pend N1 x N2 H; [destruct N1; discriminate|].
  assert (G : exists M pend', notes tag pend [e] = M /\ length M <= 1 /\ last_calls pend [e] = pend' /\
     notes tag pend (e :: h) = M ++ notes tag pend' h).
  { destruct e as [a o|a r|a|a b]; cbn.
    - exists (if noted o then [NCall (tag a) o] else []), (mark pend a o).
      destruct (noted o); cbn; auto.
    - exists (if noted_ret (pend a) r then [NRet (tag a) (pend a) r] else []), pend.
      destruct (noted_ret (pend a) r); cbn; auto.
    - exists [NStart (tag a)], pend. cbn. auto.
    - exists [NEnd (tag a) b], pend. cbn. auto. }
  destruct G as (M & pend' & E1 & E2 & E3 & E4). rewrite E4 in H.
  assert (L : forall M', notes tag pend' h = M' ++ x :: N2 -> N1 = M ++ M' ->
     exists h1 e0 h2, e :: h = h1 ++ e0 :: h2 /\ notes tag pend h1 = N1 /\
       notes tag (last_calls pend h1) [e0] = [x]).
  { intros M' H' ->. destruct (IH _ _ _ _ H') as (h1 & e0 & h2 & -> & X1 & X2).
    exists (e :: h1), e0, h2. split; auto. split.
    - change (e :: h1) with ([e] ++ h1).
      assert (E5 : notes tag pend ([e] ++ h1) = M ++ notes tag pend' h1).
      { subst M pend'. destruct e; cbn; rewrite ?app_nil_r; reflexivity. }
      rewrite E5, X1. reflexivity.
    - change (last_calls pend (e :: h1)) with (last_calls pend ([e] ++ h1)).
      assert (E5 : last_calls pend ([e] ++ h1) = last_calls pend' h1).
      { subst pend'. destruct e; reflexivity. }
      now rewrite E5. }
  destruct M as [|y M].
  - apply (L N1); auto.
  - destruct M; [|cbn in E2; lia]. destruct N1 as [|z N1].
    + cbn in H. injection H as -> H. exists [], e, h. auto.
    + cbn in H. injection H as -> H. apply (L N1); auto.
Qed.

Lemma notes_in tag pend h e x : In e h ->
  (forall p, notes tag p [e] = [x]) -> In x (notes tag pend h).
Proof.
  intros H X. apply in_split in H as (h1 & h2 & ->). revert pend.
  induction h1 as [|e1 h1 IH]; intros pend.
  - specialize (X pend). destruct e as [a o|a r|a|a b]; cbn in *.
    + rewrite app_nil_r in X. rewrite X. now left.
    + rewrite app_nil_r in X. rewrite X. now left.
    + injection X as ->. now left.
    + injection X as ->. now left.
  - destruct e1; cbn; try (apply in_app_iff; right); try right; apply IH.
Qed.

Lemma ret_note tag p e t o r : notes tag p [e] = [NRet t o r] -> exists a, e = EvRet a r /\ tag a = t.
Proof.
  destruct e as [a o'|a r'|a|a b]; cbn; try discriminate.
  - destruct (noted o'); discriminate.
  - destruct (noted_ret (p a) r'); [|discriminate]. intros [= <- _ <-]. eauto.
Qed.

Lemma source_note tag e v : source v e -> exists x, brings v x /\ forall p, notes tag p [e] = [x].
Proof.
  destruct e as [a o|a r|a|a b]; cbn; try contradiction.
  - destruct o as [| | | | | | | | | | |w|w| |]; try contradiction; intros ->.
    + exists (NCall (tag a) (GSet v)). cbn. auto.
    + exists (NCall (tag a) (GStore v)). cbn. auto.
  - destruct b as [w|w|]; try contradiction. intros ->. exists (NEnd (tag a) (BOk v)). cbn. auto.
Qed.

Theorem values_have_source k ov h tag pend N1 t o r v N2 : cell_history k ov h ->
  notes tag pend h = N1 ++ NRet t o r :: N2 -> reveals r v ->
  ov = Some v \/ exists x, In x N1 /\ brings v x.
Proof.
  intros [c R] E S. destruct (notes_split _ _ _ _ _ _ E) as (h1 & e & h2 & -> & <- & X).
  apply ret_note in X as (a & -> & <-).
  assert (S' : shows r v) by (destruct r; cbn in *; auto).
  destruct (shown_values_have_source _ _ _ _ _ _ _ _ R S') as [|(e & Se & He)]; auto.
  right. destruct (source_note tag _ _ Se) as (x & B & X). exists x. split; auto.
  eapply notes_in; eauto.
Qed.

Theorem errors_from_builder k ov h tag pend N1 t o e N2 : cell_history k ov h ->
  notes tag pend h = N1 ++ NRet t o (RErr e) :: N2 -> In (NEnd t (BErr e)) N1.
Proof.
  intros [c R] E. destruct (notes_split _ _ _ _ _ _ E) as (h1 & x & h2 & -> & <- & X).
  apply ret_note in X as (a & -> & <-).
  pose proof (error_from_builder _ _ _ _ _ _ _ R) as L. apply last_of_in in L as [L _].
  eapply notes_in; [exact L|reflexivity].
Qed.

Theorem panics_from_builder k ov h tag pend N1 t o N2 : cell_history k ov h ->
  notes tag pend h = N1 ++ NRet t o RPanic :: N2 ->
  In (NEnd t BPanic) N1 \/ exists e, In (NEnd t (BErr e)) N1.
Proof.
  intros [c R] E. destruct (notes_split _ _ _ _ _ _ E) as (h1 & x & h2 & -> & <- & X).
  apply ret_note in X as (a & -> & <-).
  destruct (panic_from_builder _ _ _ _ _ _ R) as [L|[e L]]; apply last_of_in in L as [L _].
  - left. eapply notes_in; [exact L|reflexivity].
  - right. exists e. eapply notes_in; [exact L|reflexivity].
Qed.

(** The calls that may run a builder. *)
Theorem starts_are_asked_for k ov h tag pend N1 t N2 : cell_history k ov h ->
  notes tag pend h = N1 ++ NStart t :: N2 -> exists o, lazy_call o = true /\ In (NCall t o) N1.
Proof.
  intros [c R] E. destruct (notes_split _ _ _ _ _ _ E) as (h1 & x & h2 & -> & <- & X).
  destruct x as [a o|a r|a|a b]; cbn in X; try discriminate.
  { destruct (noted o); discriminate. }
  { destruct (noted_ret (last_calls pend h1 a) r); discriminate. }
  injection X as <-.
  destruct (builder_only_for_reads _ _ _ _ _ _ R) as (o & _ & Lz & L).
  apply last_of_in in L as [L _]. exists o. split; auto.
  eapply notes_in; [exact L|]. intros p. cbn. destruct o; cbn in *; try discriminate; reflexivity.
Qed.
