(** Facts about the histories of the atomic cell (AtomicCell.v), stated with the
    vocabulary of TraceSpec.v. *)
From Coq Require Import List Bool Arith Lia.
From Verif Require Import ProxyTypes AtomicCell TraceSpec.
Import ListNotations.

Section Facts.
  Context {V E : Type}.
  Variable k : bool.
  Notation cell := (cell V E).
  Notation cstep := (@cstep V E k).
  Notation cruns := (@cruns V E k).

  (** ** Reading histories *)
  Lemma last_of_app t1 t2 a :
    @last_of V E (t1 ++ t2) a = match last_of t2 a with Some e => Some e | None => last_of t1 a end.
  Proof.
    unfold last_of. rewrite fold_left_app.
    generalize (fold_left (fun acc e => if Nat.eqb (who e) a then Some e else acc) t1 None).
    induction t2 as [|e t IH] using rev_ind; intros x; cbn; auto.
    rewrite !fold_left_app. cbn. destruct (Nat.eqb (who e) a); auto.
  Qed.

  Lemma pending_app t1 t2 a :
    @pending V E (t1 ++ t2) a =
    fold_left (fun acc e =>
                 match e with
                 | EvCall b o => if Nat.eqb b a then Some o else acc
                 | EvRet b _ => if Nat.eqb b a then None else acc
                 | _ => acc
                 end) t2 (pending t1 a).
  Proof. unfold pending. now rewrite fold_left_app. Qed.

  Lemma last_of_in t a e : @last_of V E t a = Some e -> In e t /\ who e = a.
  Proof.
    induction t as [|x t IH] using rev_ind; cbn; [discriminate|].
    rewrite last_of_app. cbn. destruct (Nat.eqb_spec (who x) a) as [Hx|Hx].
    - intros H; injection H as ->. split; auto. apply in_or_app; cbn; auto.
    - intros H. destruct (IH H). split; auto. apply in_or_app; auto.
  Qed.

  Lemma pending_silent t1 t2 a : last_of t2 a = None -> @pending V E (t1 ++ t2) a = pending t1 a.
  Proof.
    rewrite pending_app. generalize (@pending V E t1 a).
    induction t2 as [|x u IH] using rev_ind; intros p Hu; cbn; auto.
    rewrite last_of_app in Hu. cbn in Hu. destruct (Nat.eqb (who x) a) eqn:Hx; [discriminate|].
    rewrite fold_left_app. cbn. rewrite (IH p Hu). destruct x; cbn in Hx; rewrite ?Hx; auto.
  Qed.

  (** ** Runs *)
  Lemma cruns_app c t1 c1 t2 c2 : cruns c t1 c1 -> cruns c1 t2 c2 -> cruns c (t1 ++ t2) c2.
  Proof.
    induction 1; cbn; auto. intros H'. rewrite <- app_assoc. econstructor; eauto.
  Qed.

  Lemma cstep_short c t c' : cstep c t c' -> t = [] \/ exists e, t = [e].
  Proof. destruct 1; eauto. Qed.

  (** A history can be cut anywhere. *)
  Lemma cruns_split t1 : forall c t2 c2,
    cruns c (t1 ++ t2) c2 -> exists c1, cruns c t1 c1 /\ cruns c1 t2 c2.
  Proof.
    intros c t2 c2 H. remember (t1 ++ t2) as t eqn:Ht. revert t1 t2 Ht.
    induction H as [c|c ta c1 tb c2 Hs Hr IH]; intros t1 t2 Ht.
    - symmetry in Ht. apply app_eq_nil in Ht as [-> ->]. exists c. split; constructor.
    - destruct (cstep_short _ _ _ Hs) as [->|[e ->]]; cbn in Ht.
      + destruct (IH _ _ Ht) as (c3 & R1 & R2). exists c3. split; auto.
        change t1 with ([] ++ t1). econstructor; eauto.
      + destruct t1 as [|e' t1]; cbn in Ht.
        * subst t2. exists c. split; [constructor|].
          change (e :: tb) with ([e] ++ tb). econstructor; eauto.
        * injection Ht as <- Ht. destruct (IH _ _ Ht) as (c3 & R1 & R2).
          exists c3. split; auto. change (e :: t1) with ([e] ++ t1). econstructor; eauto.
  Qed.

  (** The state just before and after a visible event. *)
  Lemma cruns_event c t1 e t2 c2 :
    cruns c (t1 ++ e :: t2) c2 ->
    exists c1 c1', cruns c t1 c1 /\ cstep c1 [e] c1' /\ cruns c1' t2 c2.
  Proof.
    intros H. apply cruns_split in H as (c1 & H1 & H2).
    remember (e :: t2) as t eqn:Ht. revert t1 H1.
    induction H2 as [c1|c1 ta c3 tb c2 Hs Hr IH]; intros t1 H1; [discriminate|].
    destruct (cstep_short _ _ _ Hs) as [->|[e' ->]]; cbn in Ht.
    - apply (IH Ht t1). rewrite <- (app_nil_r t1). eapply cruns_app; eauto.
      rewrite <- (app_nil_r []). econstructor; eauto. constructor.
    - injection Ht as -> ->. eauto.
  Qed.

  (** Induction over runs with the history so far. *)
  Lemma cruns_ind_snoc (P : list (event V E) -> cell -> Prop) c0 :
    P [] c0 ->
    (forall t c t' c', cruns c0 t c -> P t c -> cstep c t' c' -> P (t ++ t') c') ->
    forall t c, cruns c0 t c -> P t c.
  Proof.
    intros H0 Hs.
    assert (G : forall c1 t2 c2, cruns c1 t2 c2 ->
                forall t1, cruns c0 t1 c1 -> P t1 c1 -> P (t1 ++ t2) c2).
    { induction 1 as [c|c ta c1 tb c2 Hst Hr IH]; intros t1 R Pt.
      - now rewrite app_nil_r.
      - rewrite app_assoc. apply IH; [|eapply Hs; eauto].
        eapply cruns_app; eauto. rewrite <- (app_nil_r ta). econstructor; eauto. constructor. }
    intros t c R. apply (G c0 t c R []); auto. constructor.
  Qed.

  Lemma put_same (c : cell) a x : stat (put c a x) a = x.
  Proof. cbn. now rewrite Nat.eqb_refl. Qed.
  Lemma put_other (c : cell) a x b : b <> a -> stat (put c a x) b = stat c b.
  Proof. intros H. cbn. apply Nat.eqb_neq in H. now rewrite H. Qed.

  (** ** Status and history go together *)
  Definition fits (t : list (event V E)) (a : aid) (x : status V E) : Prop :=
    match x with
    | SIdle h => pending t a = None
    | SCalled h o => pending t a = Some o /\ last_of t a = Some (EvCall a o)
    | SBuilding o => pending t a = Some o /\ last_of t a = Some (EvBuildStart a) /\ reading o = true
    | SBuilt o v => pending t a = Some o /\ last_of t a = Some (EvBuildEnd a (BOk v)) /\ reading o = true
    | SEnsured o => pending t a = Some o /\ reading o = true /\
                    exists v, last_of t a = Some (EvBuildEnd a (BOk v))
    | SDone h r =>
        exists o, pending t a = Some o /\
          match r with
          | RPanic => reading o = true /\
                      (last_of t a = Some (EvBuildEnd a BPanic) \/
                      exists e, last_of t a = Some (EvBuildEnd a (BErr e)))
          | RErr e => last_of t a = Some (EvBuildEnd a (BErr e))
          | RClone ov b bs => b = is_some ov /\ bs = true
          | RGuard v => (o = ORead \/ o = OTryRead) /\ h = HR \/ (o = OReadMut \/ o = OTryReadMut) /\ h = HM
          | _ => True
          end /\
          (forall e, last_of t a = Some (EvBuildEnd a (BErr e)) -> r = reading_err o e) /\
          (last_of t a = Some (EvBuildEnd a BPanic) -> r = RPanic)
    end.

  Lemma fits_other t e a x : who e <> a -> fits t a x -> fits (t ++ [e]) a x.
  Proof.
    intros H.
    assert (L : last_of (t ++ [e]) a = last_of t a).
    { rewrite last_of_app. cbn. apply Nat.eqb_neq in H. now rewrite H. }
    assert (P : pending (t ++ [e]) a = pending t a).
    { rewrite pending_app. cbn. apply Nat.eqb_neq in H. destruct e; cbn in *; rewrite ?H; auto. }
    unfold fits. destruct x; rewrite ?L, ?P; auto.
  Qed.

  Lemma last_snoc t e a : who e = a -> @last_of V E (t ++ [e]) a = Some e.
  Proof. intros <-. rewrite last_of_app. cbn. now rewrite Nat.eqb_refl. Qed.
  Lemma pend_call t a o : @pending V E (t ++ [EvCall a o]) a = Some o.
  Proof. rewrite pending_app. cbn. now rewrite Nat.eqb_refl. Qed.
  Lemma pend_ret t a r : @pending V E (t ++ [EvRet a r]) a = None.
  Proof. rewrite pending_app. cbn. now rewrite Nat.eqb_refl. Qed.
  Lemma pend_bs t a b : @pending V E (t ++ [EvBuildStart a]) b = pending t b.
  Proof. rewrite pending_app. reflexivity. Qed.
  Lemma pend_be t a o b : @pending V E (t ++ [EvBuildEnd a o]) b = pending t b.
  Proof. rewrite pending_app. reflexivity. Qed.

  Definition all_fit (t : list (event V E)) (c : cell) : Prop := forall a, fits t a (stat c a).

  Lemma fits_step t c t' c' : all_fit t c -> cstep c t' c' -> all_fit (t ++ t') c'.
  Proof.
    intros F H a.
    inversion H; subst; cbn [stat put fill lock_build];
      match goal with
      | |- context [if Nat.eqb a ?b then _ else _] => destruct (Nat.eqb_spec a b) as [->|Hn]
      end;
      try (rewrite ?app_nil_r; apply F);
      try (apply fits_other; [cbn; congruence|apply F]);
      pose proof (F a0) as Fa; match goal with Hs : stat c _ = _ |- _ => rewrite Hs in Fa end;
      cbn in Fa |- *; rewrite ?app_nil_r.
    - (* call *) rewrite pend_call, last_snoc; auto.
    - (* ret *) apply pend_ret.
    - (* simple *)
      destruct Fa as [Fp Fl]. exists o. repeat split; auto.
      + destruct o; cbn in H1; try discriminate; try (injection H1 as <- <- <-; auto);
          destruct (content c); try discriminate; injection H1 as <- <- <-; auto.
      + rewrite Fl. discriminate.
      + rewrite Fl. discriminate.
    - (* hit *)
      destruct Fa as [Fp Fl]. exists o. repeat split; auto.
      + destruct o; cbn in *; try discriminate; auto.
      + rewrite Fl. discriminate.
      + rewrite Fl. discriminate.
    - (* build *) rewrite pend_bs, last_snoc; auto. tauto.
    - (* built *) rewrite pend_be, last_snoc; auto. tauto.
    - (* fail *)
      exists o. rewrite pend_be, last_snoc; auto. destruct Fa as (Fp & Fl & Fr).
      repeat split; auto.
      + destruct o; cbn in *; try discriminate; eauto.
      + intros e' He. injection He as ->. auto.
      + discriminate.
    - (* panic *)
      exists o. rewrite pend_be, last_snoc; auto. destruct Fa as (Fp & Fl & Fr).
      repeat split; auto. discriminate.
    - (* install *) destruct Fa as (Fp & Fl & Fr). eauto.
    - (* ensured *)
      destruct Fa as (Fp & Fr & w & Fl). exists o. repeat split; auto.
      + destruct o; cbn in *; try discriminate; auto.
      + rewrite Fl. discriminate.
      + rewrite Fl. discriminate.
    - (* cancel *)
      destruct Fa as [Fp Fl]. exists o. repeat split; auto; rewrite Fl; discriminate.
    - destruct Fa as (Fp & Fl & Fr). exists o. repeat split; auto; rewrite Fl; discriminate.
  Qed.

  Lemma fits_all ov t c : cruns (cell_init ov) t c -> all_fit t c.
  Proof.
    intros H. revert t c H. apply cruns_ind_snoc.
    - intros a. reflexivity.
    - intros. eapply fits_step; eauto.
  Qed.

  (** Which status owns the right to build. *)
  Definition bld_ok (c : cell) : Prop :=
    forall a, building c = Some a <->
              match stat c a with SBuilding _ | SBuilt _ _ => True | _ => False end.

  Lemma bld_step c t' c' : bld_ok c -> cstep c t' c' -> bld_ok c'.
  Proof.
    intros F H a. pose proof (F a) as Fa.
    inversion H; subst; pose proof (F a0) as Fb; cbn;
      match goal with Hs : stat c _ = _ |- _ => rewrite Hs in Fb end;
      destruct (Nat.eqb_spec a a0) as [->|Hn]; auto; try tauto;
      try (split; [congruence|]); intros; try tauto;
      try (exfalso; apply Fa in H4; congruence);
      try (assert (building c = Some a0) by tauto);
      try (rewrite <- Fa in *; congruence).
  Qed.

  Lemma bld_all ov t c : cruns (cell_init ov) t c -> bld_ok c.
  Proof.
    intros H. revert t c H. apply (cruns_ind_snoc (fun _ c => bld_ok c)).
    - intros a. cbn. split; [discriminate|tauto].
    - intros. eapply bld_step; eauto.
  Qed.

  (** ** C01: two successful builds are separated by a clear *)
  (** The field is filled, or about to be. *)
  Definition full (c : cell) : Prop :=
    (exists a o v, building c = Some a /\ stat c a = SBuilt o v) \/
    (content c <> None /\ building c = None).

  Lemma full_step c t' c' :
    bld_ok c -> full c -> cstep c t' c' ->
    full c' \/ (exists d h o, stat c d = SCalled h o /\ clearing o = true).
  Proof.
    intros B [(a & o & v & Ha & Hs)|[Hc Hb]] H.
    - (* being installed *)
      inversion H; subst; try (left; left; exists a, o, v; cbn;
        match goal with
        | |- context [Nat.eqb a ?x] => destruct (Nat.eqb_spec a x) as [->|Hn]; [congruence|auto]
        end; fail).
      + (* build: impossible *) congruence.
      + (* fail: of somebody else, impossible *)
        exfalso. pose proof (proj2 (B a0)) as G. rewrite H0 in G. specialize (G I).
        assert (a0 = a) by congruence. subst. congruence.
      + exfalso. pose proof (proj2 (B a0)) as G. rewrite H0 in G. specialize (G I).
        assert (a0 = a) by congruence. subst. congruence.
      + (* install *)
        left. right. cbn. split; [discriminate|auto].
      + exfalso. pose proof (proj2 (B a0)) as G. rewrite H1 in G. specialize (G I).
        assert (a0 = a) by congruence. subst. congruence.
    - (* filled *)
      inversion H; subst; try (left; right; cbn; auto; fail); try congruence.
      + (* simple *)
        destruct (clearing o) eqn:Ho; [right; exists a, h, o; auto|].
        left. right. cbn. split; auto.
        destruct o; cbn in *; try discriminate; try (injection H1 as <- <- <-; congruence);
          destruct (content c); try discriminate; injection H1 as <- <- <-; discriminate.
  Qed.

  Lemma full_run ov t1 c1 : cruns (cell_init ov) t1 c1 -> full c1 ->
    forall t2 c2, cruns c1 t2 c2 -> full c2 \/ overlapping clearing t1 t2.
  Proof.
    intros R F. apply cruns_ind_snoc; auto.
    intros t c t' c' R2 [Fc|O] Hs.
    - assert (R' : cruns (cell_init ov) (t1 ++ t) c) by (eapply cruns_app; eauto).
      destruct (full_step _ _ _ (bld_all _ _ _ R') Fc Hs) as [|(d & h & o & Hd & Ho)]; auto.
      right. pose proof (fits_all _ _ _ R' d) as Fd. rewrite Hd in Fd. cbn in Fd.
      destruct Fd as [_ Fl]. exists d, o. split; auto.
      rewrite last_of_app in Fl. destruct (last_of t d) as [e|] eqn:Hl.
      + injection Fl as ->. right. apply in_or_app. left. apply last_of_in in Hl. tauto.
      + left.
        pose proof (fits_all _ _ _ R' d) as Fd. rewrite Hd in Fd. cbn in Fd. destruct Fd as [Fp _].
        rewrite pending_silent in Fp; auto.
    - right. destruct O as (d & o & Ho & [Hp|Hi]); exists d, o; split; auto.
      right. apply in_or_app. auto.
  Qed.

  Theorem successes_separated ov t1 a v t2 b w t3 c :
    cruns (cell_init ov)
          (t1 ++ EvBuildEnd a (BOk v) :: t2 ++ EvBuildEnd b (BOk w) :: t3) c ->
    overlapping clearing t1 t2.
  Proof.
    intros H. apply cruns_event in H as (c1 & c1' & R1 & S1 & R2).
    apply cruns_event in R2 as (c2 & c2' & R2 & S2 & _).
    assert (R1' : cruns (cell_init ov) (t1 ++ [EvBuildEnd a (BOk v)]) c1').
    { eapply cruns_app; eauto. rewrite <- (app_nil_r [_]). econstructor; eauto. constructor. }
    assert (F1 : full c1').
    { inversion S1; subst. left. exists a, o, v. cbn. rewrite Nat.eqb_refl. split; auto.
      apply (bld_all _ _ _ R1). rewrite H3. auto. }
    destruct (full_run _ _ _ R1' F1 _ _ R2) as [F2|(d & o & Ho & Hd)].
    - exfalso. pose proof (bld_all _ _ _ (cruns_app _ _ _ _ _ R1' R2)) as B2.
      inversion S2; subst. pose proof (proj2 (B2 b)) as G. rewrite H3 in G. specialize (G I).
      destruct F2 as [(a' & o' & v' & Ha & Hs)|[_ Hb]]; congruence.
    - exists d, o. split; auto. rewrite pend_be in Hd. auto.
  Qed.

  (** With an initial value the first success needs a clear too. *)
  Theorem first_success_separated v0 t1 b w t2 c :
    cruns (cell_init (Some v0)) (t1 ++ EvBuildEnd b (BOk w) :: t2) c ->
    overlapping clearing [] t1.
  Proof.
    intros H. apply cruns_event in H as (c1 & c1' & R1 & S1 & _).
    assert (F0 : full (cell_init (Some v0) : cell)) by (right; cbn; split; [discriminate|auto]).
    assert (R0 : cruns (cell_init (Some v0)) [] (cell_init (Some v0))) by constructor.
    destruct (full_run _ _ _ R0 F0 _ _ R1) as [F2|O]; auto.
    exfalso. pose proof (bld_all _ _ _ R1) as B2.
    inversion S1; subst. pose proof (proj2 (B2 b)) as G. rewrite H3 in G. specialize (G I).
    destruct F2 as [(a' & o' & v' & Ha & Hs)|[_ Hb]]; congruence.
  Qed.

  Ltac stt F := match goal with Hq : stat _ _ = _ |- _ => rewrite Hq in F end.

  (** ** C02, C06: where panics and errors come from *)
  Lemma ret_state ov t1 a r t2 c :
    cruns (cell_init ov) (t1 ++ EvRet a r :: t2) c ->
    exists c1 h, cruns (cell_init ov) t1 c1 /\ stat c1 a = SDone h r.
  Proof.
    intros H. apply cruns_event in H as (c1 & c1' & R1 & S1 & _).
    inversion S1; subst. eauto.
  Qed.

  Theorem panic_from_builder ov t1 a t2 c :
    cruns (cell_init ov) (t1 ++ EvRet a RPanic :: t2) c ->
    last_of t1 a = Some (EvBuildEnd a BPanic) \/
    exists e, last_of t1 a = Some (EvBuildEnd a (BErr e)).
  Proof.
    intros H. apply ret_state in H as (c1 & h & R & Hs).
    pose proof (fits_all _ _ _ R a) as F. rewrite Hs in F. cbn in F.
    destruct F as (o & _ & [_ F] & _). auto.
  Qed.

  Theorem error_from_builder ov t1 a e t2 c :
    cruns (cell_init ov) (t1 ++ EvRet a (RErr e) :: t2) c ->
    last_of t1 a = Some (EvBuildEnd a (BErr e)).
  Proof.
    intros H. apply ret_state in H as (c1 & h & R & Hs).
    pose proof (fits_all _ _ _ R a) as F. rewrite Hs in F. cbn in F.
    destruct F as (o & _ & F & _). auto.
  Qed.

  Lemma last_silent t1 e t2 a : who e = a -> silent a t2 -> @last_of V E (t1 ++ e :: t2) a = Some e.
  Proof.
    intros He Hs. rewrite last_of_app.
    assert (G : last_of (e :: t2) a = Some e).
    { change (e :: t2) with ([e] ++ t2). rewrite last_of_app.
      destruct (last_of t2 a) as [x|] eqn:Hl.
      - apply last_of_in in Hl as [Hi Hw]. destruct (Hs _ Hi Hw).
      - cbn. rewrite He, Nat.eqb_refl. auto. }
    rewrite G. auto.
  Qed.

  Theorem failure_answer ov t1 a e t2 x t3 c :
    cruns (cell_init ov) (t1 ++ EvBuildEnd a (BErr e) :: t2 ++ x :: t3) c ->
    silent a t2 -> who x = a ->
    exists o, pending t1 a = Some o /\ lazy_call o = true /\ x = EvRet a (reading_err o e).
  Proof.
    intros H Hs Hx.
    pose proof (cruns_event _ _ _ _ _ H) as (c0 & c0' & R0 & S0 & _).
    change (t1 ++ EvBuildEnd a (BErr e) :: t2 ++ x :: t3)
      with (t1 ++ (EvBuildEnd a (BErr e) :: t2) ++ x :: t3) in H.
    rewrite app_assoc in H. apply cruns_event in H as (c1 & c1' & R1 & S1 & _).
    pose proof (fits_all _ _ _ R0 a) as F0.
    inversion S0; subst. stt F0. cbn in F0. destruct F0 as (P0 & _ & Rd).
    assert (L : last_of (t1 ++ EvBuildEnd (who x) (BErr e) :: t2) (who x)
                = Some (EvBuildEnd (who x) (BErr e))) by (apply last_silent; auto).
    assert (P : pending (t1 ++ EvBuildEnd (who x) (BErr e) :: t2) (who x) = Some o).
    { change (EvBuildEnd (who x) (BErr e) :: t2) with ([EvBuildEnd (who x) (BErr e)] ++ t2).
      rewrite app_assoc, pending_silent, pend_be; auto.
      destruct (last_of t2 (who x)) as [y|] eqn:Hl; auto.
      apply last_of_in in Hl as [Hi Hw]. destruct (Hs _ Hi Hw). }
    pose proof (fits_all _ _ _ R1 (who x)) as F. exists o. split; auto. split; auto.
    inversion S1; subst; cbn [who] in *; stt F; cbn in F; try rewrite L in F;
      try (destruct F as (? & F2 & ?); discriminate);
      try (destruct F as [? F2]; discriminate).
    - rewrite P in F. discriminate.
    - destruct F as (o' & F1 & _ & F2 & _). rewrite P in F1. injection F1 as <-.
      rewrite (F2 _ eq_refl). auto.
  Qed.

  (** A builder starts at most once per call, and only for calls that need a value. *)
  Theorem builder_only_for_reads ov t1 a t2 c :
    cruns (cell_init ov) (t1 ++ EvBuildStart a :: t2) c ->
    exists o, pending t1 a = Some o /\ lazy_call o = true /\ last_of t1 a = Some (EvCall a o).
  Proof.
    intros H. apply cruns_event in H as (c1 & c1' & R1 & S1 & _).
    inversion S1; subst. pose proof (fits_all _ _ _ R1 a) as F. stt F. cbn in F.
    exists o. repeat split; try tauto.
  Qed.

  (** Builders do not overlap. *)
  Theorem builders_exclusive ov t1 a t2 b t3 c :
    cruns (cell_init ov) (t1 ++ EvBuildStart a :: t2 ++ EvBuildStart b :: t3) c ->
    k = true \/ exists out, In (EvBuildEnd a out) t2.
  Proof.
    intros H. apply cruns_event in H as (c1 & c1' & R1 & S1 & R2).
    apply cruns_event in R2 as (c2 & c2' & R2 & S2 & _).
    destruct (bool_dec k true) as [Hk|Hk]; auto. right.
    assert (G : forall t c, cruns c1' t c ->
              ((exists o, stat c a = SBuilding o) /\ building c = Some a) \/
              exists out, In (EvBuildEnd a out) t).
    { assert (R1' : cruns (cell_init ov) (t1 ++ [EvBuildStart a]) c1').
      { eapply cruns_app; eauto. rewrite <- (app_nil_r [_]). econstructor; eauto. constructor. }
      apply cruns_ind_snoc.
      - inversion S1; subst. left. cbn. rewrite Nat.eqb_refl. eauto.
      - intros t c0 t' c' R [[[o Ho] Hb]|[out Hi]] St.
        + pose proof (bld_all _ _ _ (cruns_app _ _ _ _ _ R1' R)) as B.
          inversion St; subst;
            try (destruct (Nat.eqb_spec a a0) as [->|Hn];
                 [solve [congruence | right; eexists; apply in_or_app; right; cbn; eauto]|]);
            try (left; cbn; apply Nat.eqb_neq in Hn; rewrite Hn; eauto; fail);
            try congruence;
            exfalso; pose proof (proj2 (B a0)) as G0; stt G0; specialize (G0 I); congruence.
        + right. exists out. apply in_or_app. auto. }
    destruct (G _ _ R2) as [[_ Hb]|]; auto.
    inversion S2; subst. congruence.
  Qed.

  (** With abandoned calls: the first builder has ended, or its call was abandoned
      (all it can still do is to say so). *)
  Theorem builders_exclusive_abandon ov t1 a t2 b t3 c :
    cruns (cell_init ov) (t1 ++ EvBuildStart a :: t2 ++ EvBuildStart b :: t3) c ->
    (exists out, In (EvBuildEnd a out) t2) \/ In (EvRet a RCancelled) t2 \/
    (a <> b /\ forall u x u', t3 = u ++ x :: u' -> silent a u -> who x = a -> x = EvRet a RCancelled).
  Proof.
    intros H. apply cruns_event in H as (c1 & c1' & R1 & S1 & R2).
    apply cruns_event in R2 as (c2 & c2' & R2 & S2 & R3).
    assert (G : forall t c, cruns c1' t c ->
              ((exists o, stat c a = SBuilding o) /\ building c = Some a) \/
              (exists out, In (EvBuildEnd a out) t) \/ In (EvRet a RCancelled) t \/
              exists h, stat c a = SDone h RCancelled).
    { assert (R1' : cruns (cell_init ov) (t1 ++ [EvBuildStart a]) c1').
      { eapply cruns_app; eauto. rewrite <- (app_nil_r [_]). econstructor; eauto. constructor. }
      apply cruns_ind_snoc.
      - inversion S1; subst. left. cbn. rewrite Nat.eqb_refl. eauto.
      - intros t c0 t' c' R [[[o Ho] Hb]|[[out Hi]|[Hi|[h Hh]]]] St.
        + pose proof (bld_all _ _ _ (cruns_app _ _ _ _ _ R1' R)) as B.
          inversion St; subst;
            try (destruct (Nat.eqb_spec a a0) as [->|Hn];
                 [solve [congruence | right; left; eexists; apply in_or_app; right; cbn; eauto
                        | right; right; right; cbn; rewrite Nat.eqb_refl; eauto]|]);
            try (left; cbn; apply Nat.eqb_neq in Hn; rewrite Hn; eauto; fail);
            try congruence;
            exfalso; pose proof (proj2 (B a0)) as G0; stt G0; specialize (G0 I); congruence.
        + right. left. exists out. apply in_or_app. auto.
        + right. right. left. apply in_or_app. auto.
        + destruct (Nat.eq_dec a (match t' with e :: _ => who e | [] => S a end)) as [Ha|Ha].
          * inversion St; subst; cbn in Ha; subst; try congruence; try (exfalso; lia).
            right. right. left. apply in_or_app. right. left. congruence.
          * right. right. right. exists h.
            inversion St; subst; cbn in Ha |- *; destruct (Nat.eqb_spec a a0) as [->|Hn]; auto; congruence. }
    destruct (G _ _ R2) as [[[o Ho] Hb]|[|[|[h Hh]]]]; auto.
    { inversion S2; subst. congruence. }
    assert (Hab : a <> b) by (intros <-; inversion S2; subst; congruence).
    assert (D0 : stat c2' a = SDone h RCancelled).
    { inversion S2; subst. cbn. destruct (Nat.eqb_spec a b); congruence. }
    right. right. split; auto.
    intros u x u' -> Hs Hx.
    apply cruns_event in R3 as (c3 & c3' & R3 & S3 & _).
    assert (D : forall t c, cruns c2' t c -> silent a t -> stat c a = SDone h RCancelled).
    { apply (cruns_ind_snoc (fun t c => silent a t -> stat c a = SDone h RCancelled)).
      - auto.
      - intros t c0 t' c' R IH St Si.
        assert (Si0 : silent a t) by (intros e He; apply Si, in_or_app; auto).
        assert (Si' : silent a t') by (intros e He; apply Si, in_or_app; auto).
        specialize (IH Si0). clear Hx.
        inversion St; subst; cbn; destruct (Nat.eqb_spec a a0) as [->|Hn]; auto; try congruence.
        exfalso. apply (Si' (EvRet a0 r)); cbn; auto. }
    specialize (D _ _ R3 Hs). subst a.
    inversion S3; subst; cbn in D |- *; congruence.
  Qed.

  (** ** C07: nothing from before a clear is seen by later calls *)
  Definition known (t0 t : list (event V E)) (v : V) : Prop :=
    exists e, source v e /\ (In e t \/ last_of t0 (who e) = Some e).

  Lemma known_mono t0 t t' v : known t0 t v -> known t0 (t ++ t') v.
  Proof. intros (e & He & [Hi|Hl]); exists e; split; auto. left. apply in_or_app; auto. Qed.

  Lemma known_last t0 t a e v : source v e -> last_of (t0 ++ t) a = Some e -> who e = a -> known t0 t v.
  Proof.
    intros Hs Hl Hw. exists e. split; auto. rewrite last_of_app in Hl.
    destruct (last_of t a) as [x|] eqn:Ht.
    - injection Hl as ->. left. apply last_of_in in Ht. tauto.
    - right. congruence.
  Qed.

  (** What a step puts into the cell is known, and answers show what was in it. *)
  Lemma known_step_or (Q : V -> Prop) ov t0 t c t' c' :
    cruns (cell_init ov) (t0 ++ t) c -> cstep c t' c' ->
    (forall v, content c = Some v -> Q v \/ known t0 t v) ->
    (forall v, content c' = Some v -> Q v \/ known t0 (t ++ t') v).
  Proof.
    intros R S K v Hv.
    inversion S; subst; cbn in Hv; try (destruct (K _ Hv); auto using known_mono; fail).
    - (* simple *)
      pose proof (fits_all _ _ _ R a) as F. rewrite H in F. cbn in F. destruct F as [_ F].
      rewrite app_nil_r.
      destruct o; cbn in H0; try discriminate;
        try (injection H0 as <- <- <-; subst; auto; try discriminate).
      + destruct (content c) eqn:Hc; try discriminate. injection H0 as <- <- <-. auto.
      + destruct (content c) eqn:Hc; try discriminate. injection H0 as <- <- <-.
        injection Hv as ->. right. eapply known_last; eauto. reflexivity.
      + injection Hv as ->. right. eapply known_last; eauto. reflexivity.
    - (* install *)
      pose proof (fits_all _ _ _ R a) as F. rewrite H in F. cbn in F. destruct F as (_ & F & _).
      rewrite app_nil_r. injection Hv as ->. right. eapply known_last; eauto. reflexivity.
  Qed.

  Lemma known_step ov t0 t c t' c' :
    cruns (cell_init ov) (t0 ++ t) c -> cstep c t' c' ->
    (forall v, content c = Some v -> known t0 t v) ->
    (forall v, content c' = Some v -> known t0 (t ++ t') v).
  Proof.
    intros R S K v Hv.
    destruct (known_step_or (fun _ => False) _ _ _ _ _ _ R S) with (v := v); auto; tauto.
  Qed.

  Lemma shown_step c t' c' a h r v :
    cstep c t' c' -> stat c' a = SDone h r -> shows r v ->
    stat c a = SDone h r \/ content c = Some v.
  Proof.
    intros S Hs Hv.
    inversion S; subst; cbn in Hs; destruct (Nat.eqb_spec a a0) as [->|Hn]; auto;
      try discriminate; try (injection Hs as <- <-); try (destruct o; cbn in Hv; tauto).
    - right. destruct o; cbn in H0; try discriminate;
        try (injection H0 as <- <- <-; cbn in Hv; tauto);
        destruct (content c) eqn:Hc; try discriminate; injection H0 as <- <- <-; cbn in Hv; tauto.
    - right. destruct o; cbn in Hv; try tauto; congruence.
    - right. destruct o; cbn in Hv; try tauto; congruence.
  Qed.

  Theorem after_clear_fresh ov t1 a o t2 r t3 b r' t4 c v :
    cruns (cell_init ov) (t1 ++ EvCall a o :: t2 ++ EvRet a r :: t3 ++ EvRet b r' :: t4) c ->
    clearing o = true -> silent a t2 -> r <> RCancelled ->
    pending (t1 ++ EvCall a o :: t2 ++ [EvRet a r]) b = None ->
    shows r' v ->
    exists e, source v e /\ (In e (t2 ++ t3) \/ last_of t1 (who e) = Some e).
  Proof.
    intros H Ho Hs Hr Hb Hv.
    apply cruns_event in H as (c1 & c1' & R1 & S1 & R).
    apply cruns_event in R as (c2 & c2' & R2 & S2 & R).
    apply cruns_event in R as (c3 & c3' & R3 & S3 & _).
    assert (R1' : cruns (cell_init ov) (t1 ++ [EvCall a o]) c1').
    { eapply cruns_app; eauto. rewrite <- (app_nil_r [_]). econstructor; eauto. constructor. }
    assert (L : forall t e v0, source v0 e -> (In e t \/ last_of (t1 ++ [EvCall a o]) (who e) = Some e) ->
                            (In e t \/ last_of t1 (who e) = Some e)).
    { intros t e v0 He [Hi|Hl]; auto. rewrite last_of_app in Hl. cbn in Hl.
      destruct (Nat.eqb a (who e)); auto. injection Hl as <-.
      destruct o; cbn in Ho; try discriminate; destruct He. }
    (* up to the return of the clear *)
    assert (J : forall t c, cruns c1' t c -> silent a t ->
              (exists h, stat c a = SCalled h o) \/ (exists h, stat c a = SDone h RCancelled) \/
              (forall v, content c = Some v -> known (t1 ++ [EvCall a o]) t v)).
    { apply (cruns_ind_snoc (fun t c => silent a t ->
              (exists h, stat c a = SCalled h o) \/ (exists h, stat c a = SDone h RCancelled) \/
              (forall v, content c = Some v -> known (t1 ++ [EvCall a o]) t v))).
      - intros _. inversion S1; subst. left. exists h. apply put_same.
      - intros t c0 t' c' Rt IH St Si.
        assert (Si0 : silent a t) by (intros e He; apply Si, in_or_app; auto).
        assert (Si' : silent a t') by (intros e He; apply Si, in_or_app; auto).
        destruct (IH Si0) as [[h Hc]|[[h Hc]|K]].
        + inversion St; subst; cbn; destruct (Nat.eqb_spec a a0) as [->|Hn]; eauto;
            try congruence; try (rewrite H in Hc; injection Hc as -> ->); eauto.
          * right. right. intros w Hw. destruct o; cbn in *; try discriminate;
              injection H0 as <- <- <-; discriminate.
          * destruct o; discriminate.
          * exfalso. apply (Si' (EvBuildStart a0)); cbn; auto.
        + inversion St; subst; cbn; destruct (Nat.eqb_spec a a0) as [->|Hn]; eauto;
            try congruence.
          exfalso. apply (Si' (EvRet a0 r0)); cbn; auto.
        + right. right. eapply known_step; eauto. eapply cruns_app; eauto. }
    assert (K2 : forall v, content c2' = Some v -> known (t1 ++ [EvCall a o]) (t2 ++ [EvRet a r]) v).
    { pose proof (J _ _ R2 Hs) as [[h Hc]|[[h Hc]|K]].
      - inversion S2; subst. congruence.
      - inversion S2; subst. congruence.
      - eapply known_step; eauto. eapply cruns_app; eauto. }
    assert (R2' : cruns c1' (t2 ++ [EvRet a r]) c2').
    { eapply cruns_app; eauto. rewrite <- (app_nil_r [_]). econstructor; eauto. constructor. }
    assert (Ib : exists h, stat c2' b = SIdle h).
    { pose proof (fits_all _ _ _ (cruns_app _ _ _ _ _ R1' R2') b) as F.
      rewrite <- app_assoc in F. cbn [app] in F.
      destruct (stat c2' b); cbn in F; eauto; try (destruct F; congruence).
      destruct F as (? & F & _). congruence. }
    (* after it *)
    assert (M : forall t c, cruns c2' t c ->
              (forall v, content c = Some v -> known (t1 ++ [EvCall a o]) (t2 ++ [EvRet a r] ++ t) v) /\
              (forall h r0 v, stat c b = SDone h r0 -> shows r0 v ->
                           known (t1 ++ [EvCall a o]) (t2 ++ [EvRet a r] ++ t) v)).
    { apply cruns_ind_snoc.
      - rewrite app_nil_r. split; auto. destruct Ib as [h Hi]. intros. congruence.
      - intros t c0 t' c' Rt [K D] St.
        assert (K' : forall v, content c' = Some v ->
                     known (t1 ++ [EvCall a o]) ((t2 ++ [EvRet a r] ++ t) ++ t') v).
        { eapply known_step; eauto. eapply cruns_app; eauto. rewrite app_assoc. eapply cruns_app; eauto. }
        replace (t2 ++ [EvRet a r] ++ t ++ t') with ((t2 ++ [EvRet a r] ++ t) ++ t')
          by (now rewrite <- !app_assoc).
        split; auto. intros h r0 w Hs0 Hw.
        destruct (shown_step _ _ _ _ _ _ _ St Hs0 Hw) as [Hd|Hd]; apply known_mono; eauto. }
    destruct (M _ _ R3) as [_ D]. inversion S3; subst.
    
    match goal with Hq : stat _ b = _ |- _ => destruct (D _ _ _ Hq Hv) as (e & He & Hk) end. exists e. split; auto.
    eapply L in Hk; eauto. destruct Hk as [Hi|]; auto. left.
    apply in_app_or in Hi as [Hi|[Hi|Hi]]; try (apply in_or_app; tauto).
    subst e. destruct He.
  Qed.

  (** Every value shown came from somewhere. *)
  Theorem shown_values_have_source ov t1 a r t2 c v :
    cruns (cell_init ov) (t1 ++ EvRet a r :: t2) c -> shows r v ->
    ov = Some v \/ exists e, source v e /\ In e t1.
  Proof.
    intros H Hv. apply ret_state in H as (c1 & h & R & Hs).
    assert (M : forall t c, cruns (cell_init ov) t c ->
       (forall v, content c = Some v -> ov = Some v \/ known [] t v) /\
       (forall a h r v, stat c a = SDone h r -> shows r v -> ov = Some v \/ known [] t v)).
    { apply cruns_ind_snoc.
      - split; cbn; auto. intros; discriminate.
      - intros t c0 t' c' Rt [K D] St. split.
        + eapply (known_step_or (fun v => ov = Some v) ov []); eauto.
        + intros a0 h0 r0 w Hs0 Hw.
          destruct (shown_step _ _ _ _ _ _ _ St Hs0 Hw) as [Hd|Hd].
          * destruct (D _ _ _ _ Hd Hw); auto using known_mono.
          * destruct (K _ Hd); auto using known_mono. }
    destruct (M _ _ R) as [_ D]. destruct (D _ _ _ _ Hs Hv) as [|(e & He & [Hi|Hi])]; auto.
    - right. eauto.
    - discriminate.
  Qed.

  (** ** C08 *)
  Theorem clone_consistent ov t1 a ov' b bs t2 c :
    cruns (cell_init ov) (t1 ++ EvRet a (RClone ov' b bs) :: t2) c -> b = is_some ov' /\ bs = true.
  Proof.
    intros H. apply ret_state in H as (c1 & h & R & Hs).
    pose proof (fits_all _ _ _ R a) as F. rewrite Hs in F. cbn in F.
    destruct F as (o & _ & F & _). auto.
  Qed.
End Facts.
