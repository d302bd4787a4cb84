(** FXProxyAsync (AsyncProxyModel.v) is the cell of GuardCell.v. *)
From Coq Require Import List Bool Arith Lia.
From Verif Require Import ProxyTypes AtomicCell GuardCell GuardFacts AsyncProxyModel AsyncProxyInv.
Import ListNotations.

Section Sim.
  Context {V E : Type}.
  Notation st := (st V E).
  Notation pc := (pc V E).
  Variable bld : nat -> outcome V E.

  Definition op_of (m : rmode) : op V :=
    match m with
    | MRead => ORead | MTryRead => OTryRead | MReadMut => OReadMut | MTryReadMut => OTryReadMut
    | MLazy => OLazyInit
    end.
  Definition got (m : rmode) (v : V) : gstat V E :=
    match m with
    | MRead | MTryRead => GDone HR (RGuard v)
    | MReadMut | MTryReadMut => GDone HM (RGuard v)
    | MLazy => GDone HNone RUnit
    end.

  (** Where a call is in the cell, given where it is in the code and what is in memory. *)
  Definition at_pc (p : pc) (v : option V) (x : gstat V E) : Prop :=
    match p with
    | Hold h => x = GIdle h
    | Ret h r => x = GDone h r
    | Drop h => x = GCalled h GDrop
    | RI_Acq m | RI_Check m | RI_GetBld m | RI_Build m | RI_SetVal m _ | RI_SetFlag m => x = GCalled HNone (op_of m)
    | RI_Done m => x = GCalled HNone (op_of m) \/ exists u, v = Some u /\ x = got m u
    | RI_Fail m e => x = GDone HNone (fail_res m e)
    | RI_Unwind m => x = GDone HNone RPanic
    | RI_Drop m => x = GDone HNone RCancelled
    | R_Map m | M_Map m => exists u, v = Some u /\ x = got m u
    | W_Acq => x = GCalled HNone OWrite
    | C_Acq | C_Flag => x = GCalled HNone OClear
    | C_Take => x = GDone HNone (RVal v)
    | C_Rel old => x = GDone HNone (RVal old)
    | L_Load => x = GCalled HNone OIsSet
    | K_Acq | K_Val => x = GCalled HNone OClone
    | K_Flag ov | K_Rel ov _ => x = GDone HNone (RClone ov (is_some ov) true)
    | D_Acq | D_Val => x = GCalled HNone ODebug
    | D_Rel ov => x = GDone HNone (RVal ov)
    | G_Get h => x = GCalled h GGet
    | G_Set u => x = GCalled HM (GSet u)
    | S_Flag u => x = GCalled HW (GStore u)
    | S_Rep _ => x = GDone HW (RVal v)
    | X_Flag => x = GCalled HW GClear
    | X_Take => x = GDone HW (RVal v)
    end.

  (** What the cell holds, given memory and where the exclusive owner is; [n] counts the
      ends of builder runs. *)
  Definition mem_at (p : pc) (v : option V) (c : gcell V) (n : nat) : Prop :=
    match p with
    | S_Rep u => g_val c = Some u /\ n = g_runs c
    | RI_SetVal _ u => g_val c = None /\ n = S (g_runs c) /\ bld (g_runs c) = BOk u
    | RI_SetFlag _ => g_val c = None /\ n = S (g_runs c) /\ exists u, v = Some u /\ bld (g_runs c) = BOk u
    | C_Take | X_Take => g_val c = None /\ n = g_runs c
    | _ => g_val c = v /\ n = g_runs c
    end.
  Definition mem (s : st) (c : gcell V) (n : nat) : Prop :=
    match lw s with
    | None => g_val c = value s /\ n = g_runs c
    | Some a => mem_at (pcs s a) (value s) c n
    end.
  Record rel (n : nat) (s : st) (c : gcell V) (x : aid -> gstat V E) : Prop := mkrel {
    r_inv : inv s;
    r_mem : mem s c n;
    r_at : forall a, at_pc (pcs s a) (value s) (x a);
    r_rd : forall a, In a (g_rd c) <-> sR (x a);
    r_wr : forall a, g_wr c = Some a <-> sW (x a)
  }.

  Lemma rel_init ov : rel 0 (init ov) (mkg ov [] None 0) (fun _ => GIdle HNone).
  Proof.
    constructor; cbn; auto using inv_init; intros; unfold sR, sW; cbn; intuition congruence.
  Qed.

  (** Whoever holds a guard of the cell owns the lock somehow. *)
  Lemma sR_locked p v x f : at_pc p v x -> pc_ok p v f -> sR x -> lockof p <> LN.
  Proof.
    unfold sR. destruct p; cbn; intros A P R; try (subst x; cbn in R; subst; discriminate); try discriminate;
      try (subst x; cbn in R; try discriminate R; subst; cbn; discriminate).
    all: try (destruct m; discriminate).
  Qed.
  Lemma sW_locked p v x f : at_pc p v x -> pc_ok p v f -> sW x -> lockof p = LW.
  Proof.
    unfold sW. destruct p; cbn; intros A P R; auto;
      try (subst x; cbn in R; destruct R as [R|R]; try discriminate R; subst; cbn; auto; fail).
    destruct P as (M & _), A as (u & _ & ->). destruct M as [-> | ->]; cbn in R; destruct R; discriminate.
  Qed.

  Lemma nobody n s c x a : rel n s c x -> lw s = Some a -> held (x a) = HNone -> free c = true.
  Proof.
    intros R L H. unfold free, open.
    destruct (g_wr c) as [b|] eqn:W.
    - exfalso. pose proof (proj1 (r_wr _ _ _ _ R b) W) as S1.
      destruct (Nat.eq_dec b a) as [->|N]; [unfold sW in S1; rewrite H in S1; destruct S1; discriminate|].
      pose proof (alone _ a b (r_inv _ _ _ _ R) (proj1 (i_w _ (r_inv _ _ _ _ R) a) L) N) as LN1.
      pose proof (sW_locked _ _ _ _ (r_at _ _ _ _ R b) (i_p _ (r_inv _ _ _ _ R) b) S1); congruence.
    - destruct (g_rd c) as [|b l] eqn:D; auto.
      exfalso. assert (S1 : sR (x b)) by (apply (r_rd _ _ _ _ R); rewrite D; left; reflexivity).
      destruct (Nat.eq_dec b a) as [->|N]; [unfold sR in S1; rewrite H in S1; discriminate|].
      pose proof (alone _ a b (r_inv _ _ _ _ R) (proj1 (i_w _ (r_inv _ _ _ _ R) a) L) N) as LN1.
      exact (sR_locked _ _ _ _ (r_at _ _ _ _ R b) (i_p _ (r_inv _ _ _ _ R) b) S1 LN1).
  Qed.
  Lemma all_free n s c x : rel n s c x -> lw s = None -> lr s = [] -> free c = true.
  Proof.
    intros R W Q. unfold free, open. destruct (g_wr c) as [b|] eqn:G.
    - exfalso. pose proof (proj1 (r_wr _ _ _ _ R b) G) as S1.
      pose proof (sW_locked _ _ _ _ (r_at _ _ _ _ R b) (i_p _ (r_inv _ _ _ _ R) b) S1) as K.
      apply (i_w _ (r_inv _ _ _ _ R)) in K. congruence.
    - destruct (g_rd c) as [|b l] eqn:D; auto.
      exfalso. assert (S1 : sR (x b)) by (apply (r_rd _ _ _ _ R); rewrite D; left; reflexivity).
      pose proof (sR_locked _ _ _ _ (r_at _ _ _ _ R b) (i_p _ (r_inv _ _ _ _ R) b) S1) as K.
      destruct (lockof (pcs s b)) eqn:Z; try congruence.
      + apply (i_r _ (r_inv _ _ _ _ R)) in Z. rewrite Q in Z. destruct Z.
      + apply (i_w _ (r_inv _ _ _ _ R)) in Z. congruence.
  Qed.

  Lemma flag_told n s c x : rel n s c x -> flag s = is_some (g_val c).
  Proof.
    intros R. pose proof (r_mem _ _ _ _ R) as M. unfold mem in M.
    destruct (lw s) as [a|] eqn:W.
    - pose proof (i_p _ (r_inv _ _ _ _ R) a) as P. pose proof (proj1 (i_w _ (r_inv _ _ _ _ R) a) W) as L.
      destruct (pcs s a); cbn in *; try discriminate L; try (destruct h; cbn in *; try discriminate L);
        repeat match goal with
               | H : _ /\ _ |- _ => destruct H
               | H : exists _, _ |- _ => destruct H
               | H : ?v <> None |- _ => destruct v; [clear H|congruence]
               | H : g_val c = _ |- _ => rewrite H
               | H : value s = _ |- _ => rewrite H in *
               end; cbn in *; try congruence.
    - destruct M as [-> _]. apply (i_f _ (r_inv _ _ _ _ R) W).
  Qed.

  (** Positions without the lock do not depend on the memory. *)
  Lemma at_LN p v x v' f : lockof p = LN -> pc_ok p v f -> at_pc p v x -> at_pc p v' x.
  Proof. destruct p; cbn; try discriminate; auto. Qed.


  Notation gruns := (gruns true true bld).
  Lemma one w t w' : gstep true true bld w t w' -> gruns w t w'.
  Proof. intros H. rewrite <- (app_nil_r t). econstructor; [exact H|constructor]. Qed.

  Lemma at_move n s c x s' a p' :
    rel n s c x -> pcs s' = upd (pcs s) a p' -> value s' = value s \/ lockof (pcs s a) = LW ->
    forall b, b <> a -> at_pc (pcs s' b) (value s') (x b).
  Proof.
    intros R P V1 b N. rewrite P. unfold upd. destruct (Nat.eqb_spec b a); [congruence|].
    destruct V1 as [-> |L]; [apply (r_at _ _ _ _ R)|].
    eapply at_LN; [eapply alone; eauto using r_inv|apply (i_p _ (r_inv _ _ _ _ R))|apply (r_at _ _ _ _ R)].
  Qed.
  Lemma quiet n s c x s' n' a p' :
    rel n s c x -> inv s' -> pcs s' = upd (pcs s) a p' -> value s' = value s \/ lockof (pcs s a) = LW ->
    mem s' c n' -> at_pc p' (value s') (x a) -> rel n' s' c x.
  Proof.
    intros R I P V1 M A. constructor; auto.
    - intros b. destruct (Nat.eq_dec b a) as [->|N].
      + rewrite P. unfold upd. rewrite Nat.eqb_refl. exact A.
      + eapply at_move; eauto.
    - apply (r_rd _ _ _ _ R).
    - apply (r_wr _ _ _ _ R).
  Qed.
  Lemma moved n s c x s' c' n' a p' y :
    rel n s c x -> inv s' -> pcs s' = upd (pcs s) a p' -> value s' = value s \/ lockof (pcs s a) = LW ->
    mem s' c' n' -> at_pc p' (value s') y ->
    (forall b, In b (g_rd c') <-> sR (gset x a y b)) -> (forall b, g_wr c' = Some b <-> sW (gset x a y b)) ->
    rel n' s' c' (gset x a y).
  Proof.
    intros R I P V1 M A G1 G2. constructor; auto.
    intros b. unfold gset. destruct (Nat.eqb_spec b a) as [->|N].
    - rewrite P. unfold upd. rewrite Nat.eqb_refl. exact A.
    - eapply at_move; eauto.
  Qed.
  Lemma relabelled n s c x s' n' a p' y :
    rel n s c x -> inv s' -> pcs s' = upd (pcs s) a p' -> value s' = value s \/ lockof (pcs s a) = LW ->
    mem s' c n' -> at_pc p' (value s') y -> held y = held (x a) -> rel n' s' c (gset x a y).
  Proof.
    intros R I P V1 M A H. eapply moved; eauto; intros b; unfold gset; destruct (Nat.eqb_spec b a) as [->|N];
      [rewrite (r_rd _ _ _ _ R a); unfold sR; rewrite H; tauto|apply (r_rd _ _ _ _ R)
      |rewrite (r_wr _ _ _ _ R a); unfold sW; rewrite H; tauto|apply (r_wr _ _ _ _ R)].
  Qed.
  Lemma effective n s c x s' n' a p' h o c' h' r :
    rel n s c x -> inv s' -> pcs s' = upd (pcs s) a p' -> value s' = value s \/ lockof (pcs s a) = LW ->
    x a = GCalled h o -> effect true bld a h o c = Some (c', h', r) ->
    mem s' c' n' -> at_pc p' (value s') (GDone h' r) ->
    gruns (c, x) [] (c', gset x a (GDone h' r)) /\ rel n' s' c' (gset x a (GDone h' r)).
  Proof.
    intros R I P V1 X Ef M A. split; [apply one; econstructor; eauto|].
    destruct (effect_guards bld _ _ _ _ _ _ _ _ x Ef X (r_rd _ _ _ _ R) (r_wr _ _ _ _ R)).
    eapply moved; eauto.
  Qed.

  (** What is in memory if the mover does not own the lock exclusively. *)
  Lemma mem_other n s c s' a p' :
    mem s c n -> lw s' = lw s -> lw s <> Some a -> value s' = value s -> pcs s' = upd (pcs s) a p' -> mem s' c n.
  Proof.
    unfold mem. intros M L N -> P. rewrite L. destruct (lw s) as [b|]; auto.
    rewrite P. unfold upd. destruct (Nat.eqb_spec b a); [congruence|exact M].
  Qed.
  Lemma mem_own n s c a : mem s c n -> lw s = Some a -> mem_at (pcs s a) (value s) c n.
  Proof. unfold mem. intros M L. rewrite L in M. exact M. Qed.
  Lemma mem_gain n s c s' a p' :
    mem s c n -> lw s = None -> lw s' = Some a -> pcs s' = upd (pcs s) a p' ->
    (g_val c = value s -> n = g_runs c -> mem_at p' (value s') c n) -> mem s' c n.
  Proof.
    unfold mem. intros M L L' P H. rewrite L in M. rewrite L', P. unfold upd. rewrite Nat.eqb_refl. destruct M. auto.
  Qed.
  Lemma mem_keep (s' : st) c n a p' f : lw s' = Some a -> pcs s' = upd f a p' -> mem_at p' (value s') c n -> mem s' c n.
  Proof. unfold mem. intros -> -> M. unfold upd. rewrite Nat.eqb_refl. exact M. Qed.
  Lemma mem_gone (s' : st) c n : lw s' = None -> g_val c = value s' -> n = g_runs c -> mem s' c n.
  Proof. unfold mem. intros -> -> ->. auto. Qed.

  Lemma not_owner (s : st) a : inv s -> lockof (pcs s a) <> LW -> lw s <> Some a.
  Proof. intros I L H. apply (i_w _ I) in H. congruence. Qed.

  Ltac qt := eapply quiet; [eassumption|eassumption|reflexivity|..].
  Ltac ef := eapply effective; [eassumption|eassumption|reflexivity|..].
  Lemma sim_step n s c x act s' t :
    rel n s c x -> step s act = Some (s', t) ->
    (forall i b, nth_error (ends t) i = Some b -> bld (n + i) = b) ->
    exists c' x', gruns (c, x) (visible t) (c', x') /\ rel (n + length (ends t)) s' c' x'.
  Proof.
    intros R St O. pose proof (r_inv _ _ _ _ R) as I. pose proof (inv_step _ _ _ _ I St) as I'.
    pose proof (r_mem _ _ _ _ R) as M. destruct act as [a o|a|a b|a].
    - cbn in St. pose proof (r_at _ _ _ _ R a) as A. pose proof (i_p _ I a) as Pk.
      destruct (pcs s a) eqn:P; try discriminate St.
      destruct (enter h o) as [p|] eqn:En; try discriminate St. injection St as <- <-. cbn in A.
      exists c, (gset x a (GCalled h o)). cbn. rewrite Nat.add_0_r. split.
      + apply one. econstructor; eauto. destruct h, o; cbn in *; congruence || reflexivity.
      + eapply relabelled; eauto; try reflexivity; [|destruct h, o; cbn in En; try discriminate En; injection En as <-; reflexivity|rewrite A; reflexivity].
        assert (Lp : lockof p = lockof (Hold h : pc)) by (destruct h, o; cbn in En; try discriminate En; injection En as <-; reflexivity).
        unfold mem in *. cbn. destruct (lw s) as [b|] eqn:W; auto. unfold upd.
        destruct (Nat.eqb_spec b a) as [->|N]; auto. rewrite P in M. cbn in M.
        destruct h, o; cbn in En; try discriminate En; injection En as <-; exact M.
    - cbn in St. unfold step_code in St. pose proof (r_at _ _ _ _ R a) as A. pose proof (i_p _ I a) as Pk.
      assert (OWN : lockof (pcs s a) = LW -> lw s = Some a) by (intros L; apply (i_w _ I); exact L).
      assert (NOT : lockof (pcs s a) <> LW -> lw s <> Some a) by apply (not_owner _ _ I).
      destruct (pcs s a) eqn:P; try discriminate St; cbn [at_pc pc_ok lockof] in A, Pk, OWN, NOT.
      + (* Ret *) injection St as <- <-. cbn. exists c, (gset x a (GIdle h)). split; [apply one; econstructor; eauto|].
        rewrite Nat.add_0_r. eapply relabelled; [eassumption|eassumption|reflexivity|auto| |reflexivity|rewrite A; reflexivity].
        destruct h; cbn in OWN, NOT.
        1,2: eapply mem_other; [exact M|reflexivity|apply NOT; discriminate|reflexivity|reflexivity].
        1,2: pose proof (mem_own _ _ _ _ M (OWN eq_refl)) as Ma; rewrite P in Ma;
             eapply mem_keep; [exact (OWN eq_refl)|reflexivity|exact Ma].
      + (* Drop *) destruct Pk as [Hn Pk]. destruct h; try congruence; injection St as <- <-; cbn [visible ends flat_map length]; rewrite Nat.add_0_r; cbn in OWN, NOT.
        * do 2 eexists. ef; [auto|exact A|reflexivity| |reflexivity].
          eapply mem_other; [exact M|reflexivity|apply NOT; discriminate|reflexivity|reflexivity].
        * do 2 eexists. pose proof (mem_own _ _ _ _ M (OWN eq_refl)) as Ma; rewrite P in Ma; destruct Ma.
          ef; [auto|exact A|reflexivity|apply mem_gone; auto|reflexivity].
        * do 2 eexists. pose proof (mem_own _ _ _ _ M (OWN eq_refl)) as Ma; rewrite P in Ma; destruct Ma.
          ef; [auto|exact A|reflexivity|apply mem_gone; auto|reflexivity].
      + (* RI_Acq *) destruct (lw s) as [?|] eqn:W; try discriminate St. destruct (lr s) eqn:Lr; try discriminate St.
        injection St as <- <-. cbn. rewrite Nat.add_0_r. exists c, x. split; [constructor|]. qt; auto.
        eapply mem_gain; [exact M|exact W|reflexivity|reflexivity|]. cbn. auto.
      + (* RI_Check *) pose proof (mem_own _ _ _ _ M (OWN eq_refl)) as Ma; rewrite P in Ma.
        destruct (value s) as [u|] eqn:Vs; injection St as <- <-; cbn; rewrite Nat.add_0_r; exists c, x; (split; [constructor|]);
          (qt; [auto|eapply mem_keep; [exact (OWN eq_refl)|reflexivity|cbn; rewrite Vs; exact Ma]|cbn; auto]).
      + (* RI_GetBld *) rewrite (i_b _ I) in St. injection St as <- <-. cbn. rewrite Nat.add_0_r. exists c, x. split; [constructor|]. qt; auto.
        pose proof (mem_own _ _ _ _ M (OWN eq_refl)) as Ma; rewrite P in Ma.
        eapply mem_keep; [exact (OWN eq_refl)|reflexivity|exact Ma].
      + (* RI_SetVal *) injection St as <- <-. cbn. rewrite Nat.add_0_r. exists c, x. split; [constructor|]. qt; auto; try (right; rewrite P; reflexivity).
        pose proof (mem_own _ _ _ _ M (OWN eq_refl)) as Ma; rewrite P in Ma; destruct Ma as (Mv & Mn & Mb).
        eapply mem_keep; [exact (OWN eq_refl)|reflexivity|]. cbn. eauto 6.
      + (* RI_SetFlag *) injection St as <- <-. cbn [visible ends flat_map length filter]. rewrite Nat.add_0_r.
        pose proof (mem_own _ _ _ _ M (OWN eq_refl)) as Ma; rewrite P in Ma; destruct Ma as (Mv & Mn & u & Vu & Mb).
        assert (F : free c = true) by (eapply nobody; eauto; rewrite A; reflexivity).
        destruct m; do 2 eexists;
          (ef; [auto|exact A|cbn; rewrite Mv, F, Mb; reflexivity| |cbn; right; exists u; split; [exact Vu|reflexivity]];
           eapply mem_keep; [exact (OWN eq_refl)|reflexivity|]; cbn; split; congruence).
      + (* RI_Done *) pose proof (mem_own _ _ _ _ M (OWN eq_refl)) as Ma; rewrite P in Ma; destruct Ma as [Mv Mn].
        destruct Pk as [Pv _]. destruct A as [A|(u & Vu & A)].
        * assert (F : free c = true) by (eapply nobody; eauto; rewrite A; reflexivity).
          destruct (value s) as [u|] eqn:Vu; [|congruence].
          destruct m; injection St as <- <-; cbn [visible ends flat_map length filter]; rewrite Nat.add_0_r; do 2 eexists;
            (ef; [auto|exact A|cbn; rewrite Mv, F; reflexivity|
                  first [apply mem_gone; cbn; congruence|eapply mem_keep; [exact (OWN eq_refl)|reflexivity|]; cbn; split; congruence]|
                 cbn; try exists u; try split; congruence || reflexivity]).
        * destruct m; injection St as <- <-; cbn [visible ends flat_map length filter]; rewrite Nat.add_0_r; exists c, x; (split; [constructor|]);
            (qt; [auto|first [apply mem_gone; cbn; congruence|eapply mem_keep; [exact (OWN eq_refl)|reflexivity|]; cbn; split; congruence]|cbn; eauto]).
      + (* RI_Fail *) injection St as <- <-. cbn. rewrite Nat.add_0_r. exists c, x. split; [constructor|]. qt; auto.
        pose proof (mem_own _ _ _ _ M (OWN eq_refl)) as Ma; rewrite P in Ma; destruct Ma. apply mem_gone; auto.
      + (* RI_Unwind *) injection St as <- <-. cbn. rewrite Nat.add_0_r. exists c, x. split; [constructor|]. qt; auto.
        pose proof (mem_own _ _ _ _ M (OWN eq_refl)) as Ma; rewrite P in Ma; destruct Ma. apply mem_gone; auto.
      + (* RI_Drop *) injection St as <- <-. cbn. rewrite Nat.add_0_r. exists c, x. split; [constructor|]. qt; auto.
        pose proof (mem_own _ _ _ _ M (OWN eq_refl)) as Ma; rewrite P in Ma; destruct Ma. apply mem_gone; auto.
      + (* R_Map *) destruct Pk as (Hm & Pv & _), A as (u & Vu & A). rewrite Vu in St. injection St as <- <-. cbn. rewrite Nat.add_0_r. exists c, x. split; [constructor|].
        qt; [auto| |cbn; destruct Hm as [-> | ->]; exact A].
        eapply mem_other; [exact M|reflexivity|apply NOT; discriminate|reflexivity|reflexivity].
      + (* M_Map *) destruct Pk as (Hm & Pv & _), A as (u & Vu & A). rewrite Vu in St. injection St as <- <-. cbn. rewrite Nat.add_0_r. exists c, x. split; [constructor|].
        qt; [auto| |cbn; destruct Hm as [-> | ->]; exact A].
        pose proof (mem_own _ _ _ _ M (OWN eq_refl)) as Ma; rewrite P in Ma.
        eapply mem_keep; [exact (OWN eq_refl)|reflexivity|exact Ma].
      + (* W_Acq *) destruct (lw s) as [?|] eqn:W; try discriminate St. destruct (lr s) eqn:Lr; try discriminate St.
        injection St as <- <-. cbn. rewrite Nat.add_0_r. assert (F : free c = true) by (eapply all_free; eauto).
        do 2 eexists. ef; [auto|exact A|cbn; rewrite F; reflexivity| |reflexivity].
        unfold mem in M. rewrite W in M. destruct M. eapply mem_keep; [reflexivity|reflexivity|]. cbn. auto.
      + (* C_Acq *) destruct (lw s) as [?|] eqn:W; try discriminate St. destruct (lr s) eqn:Lr; try discriminate St.
        injection St as <- <-. cbn. rewrite Nat.add_0_r. exists c, x. split; [constructor|]. qt; auto.
        eapply mem_gain; [exact M|exact W|reflexivity|reflexivity|]. cbn. auto.
      + (* C_Flag *) injection St as <- <-. cbn. rewrite Nat.add_0_r. assert (F : free c = true) by (eapply nobody; eauto; rewrite A; reflexivity).
        pose proof (mem_own _ _ _ _ M (OWN eq_refl)) as Ma; rewrite P in Ma; destruct Ma as [Mv Mn].
        do 2 eexists. ef; [auto|exact A|cbn; rewrite F; reflexivity| |cbn; congruence].
        eapply mem_keep; [exact (OWN eq_refl)|reflexivity|]. cbn. auto.
      + (* C_Take *) injection St as <- <-. cbn. rewrite Nat.add_0_r. exists c, x. split; [constructor|]. qt; [right; rewrite P; reflexivity| |exact A].
        pose proof (mem_own _ _ _ _ M (OWN eq_refl)) as Ma; rewrite P in Ma; destruct Ma as [Mv Mn].
        eapply mem_keep; [exact (OWN eq_refl)|reflexivity|]. cbn. auto.
      + (* C_Rel *) injection St as <- <-. cbn. rewrite Nat.add_0_r. exists c, x. split; [constructor|]. qt; [auto| |exact A].
        pose proof (mem_own _ _ _ _ M (OWN eq_refl)) as Ma; rewrite P in Ma; destruct Ma. apply mem_gone; auto.
      + (* L_Load *) injection St as <- <-. cbn. rewrite Nat.add_0_r. do 2 eexists. ef; [auto|exact A|reflexivity| |cbn; rewrite (flag_told _ _ _ _ R); reflexivity].
        eapply mem_other; [exact M|reflexivity|apply NOT; discriminate|reflexivity|reflexivity].
      + (* K_Acq *) destruct (lw s) as [?|] eqn:W; try discriminate St. injection St as <- <-. cbn. rewrite Nat.add_0_r. exists c, x. split; [constructor|]. qt; auto.
        eapply mem_other; [exact M|cbn; congruence|congruence|reflexivity|reflexivity].
      + (* K_Val *) injection St as <- <-. cbn. rewrite Nat.add_0_r.
        assert (W : lw s = None) by (assert (Lr : In a (lr s)) by (apply (i_r _ I); rewrite P; reflexivity);
          destruct (lw s) eqn:W; auto; pose proof (i_x _ I _ W) as Q; rewrite Q in Lr; destruct Lr).
        unfold mem in M. rewrite W in M. destruct M as [Mv Mn].
        do 2 eexists. ef; [auto|exact A|reflexivity|apply mem_gone; auto|cbn; rewrite Mv; reflexivity].
      + (* K_Flag *) injection St as <- <-. cbn. rewrite Nat.add_0_r. exists c, x. split; [constructor|]. qt; [auto| |exact A].
        eapply mem_other; [exact M|reflexivity|apply NOT; discriminate|reflexivity|reflexivity].
      + (* K_Rel *) injection St as <- <-. cbn. rewrite Nat.add_0_r. exists c, x. split; [constructor|].
        qt; [auto| |cbn; destruct Pk as [_ ->]; rewrite (i_b _ I); exact A].
        eapply mem_other; [exact M|reflexivity|apply NOT; discriminate|reflexivity|reflexivity].
      + (* D_Acq *) destruct (lw s) as [?|] eqn:W; try discriminate St. injection St as <- <-. cbn. rewrite Nat.add_0_r. exists c, x. split; [constructor|]. qt; auto.
        eapply mem_other; [exact M|cbn; congruence|congruence|reflexivity|reflexivity].
      + (* D_Val *) injection St as <- <-. cbn. rewrite Nat.add_0_r.
        assert (W : lw s = None) by (assert (Lr : In a (lr s)) by (apply (i_r _ I); rewrite P; reflexivity);
          destruct (lw s) eqn:W; auto; pose proof (i_x _ I _ W) as Q; rewrite Q in Lr; destruct Lr).
        unfold mem in M. rewrite W in M. destruct M as [Mv Mn].
        do 2 eexists. ef; [auto|exact A|reflexivity|apply mem_gone; auto|cbn; rewrite Mv; reflexivity].
      + (* D_Rel *) injection St as <- <-. cbn. rewrite Nat.add_0_r. exists c, x. split; [constructor|]. qt; [auto| |exact A].
        eapply mem_other; [exact M|reflexivity|apply NOT; discriminate|reflexivity|reflexivity].
      + (* G_Get *) destruct Pk as (Hh & Pv & _). destruct (value s) as [u|] eqn:Vu; [|congruence]. injection St as <- <-. cbn. rewrite Nat.add_0_r.
        assert (M' : g_val c = Some u /\ mem (set_pc s a (Ret h (RVal (Some u)))) c n).
        { destruct Hh as [-> | ->]; cbn in OWN, NOT.
          - assert (W : lw s = None) by (assert (Lr : In a (lr s)) by (apply (i_r _ I); rewrite P; reflexivity);
              destruct (lw s) eqn:W; auto; pose proof (i_x _ I _ W) as Q; rewrite Q in Lr; destruct Lr).
            unfold mem in M. rewrite W in M. destruct M as [Mv Mn]. split; [congruence|apply mem_gone; cbn; congruence].
          - pose proof (mem_own _ _ _ _ M (OWN eq_refl)) as Ma; rewrite P in Ma; destruct Ma as [Mv Mn]. split; [congruence|].
            eapply mem_keep; [exact (OWN eq_refl)|reflexivity|]. cbn. auto. }
        destruct M' as [Mv M']. do 2 eexists. ef; [auto|exact A|destruct Hh as [-> | ->]; cbn; rewrite Mv; reflexivity|exact M'|reflexivity].
      + (* G_Set *) injection St as <- <-. cbn. rewrite Nat.add_0_r.
        pose proof (mem_own _ _ _ _ M (OWN eq_refl)) as Ma; rewrite P in Ma; destruct Ma as [Mv Mn].
        do 2 eexists. ef; [right; rewrite P; reflexivity|exact A|reflexivity| |reflexivity].
        eapply mem_keep; [exact (OWN eq_refl)|reflexivity|]. cbn. auto.
      + (* S_Flag *) injection St as <- <-. cbn. rewrite Nat.add_0_r.
        pose proof (mem_own _ _ _ _ M (OWN eq_refl)) as Ma; rewrite P in Ma; destruct Ma as [Mv Mn].
        do 2 eexists. ef; [auto|exact A|reflexivity| |cbn; rewrite Mv; reflexivity].
        eapply mem_keep; [exact (OWN eq_refl)|reflexivity|]. cbn. auto.
      + (* S_Rep *) injection St as <- <-. cbn. rewrite Nat.add_0_r. exists c, x. split; [constructor|]. qt; [right; rewrite P; reflexivity| |exact A].
        pose proof (mem_own _ _ _ _ M (OWN eq_refl)) as Ma; rewrite P in Ma; destruct Ma as [Mv Mn].
        eapply mem_keep; [exact (OWN eq_refl)|reflexivity|]. cbn. auto.
      + (* X_Flag *) injection St as <- <-. cbn. rewrite Nat.add_0_r.
        pose proof (mem_own _ _ _ _ M (OWN eq_refl)) as Ma; rewrite P in Ma; destruct Ma as [Mv Mn].
        do 2 eexists. ef; [auto|exact A|reflexivity| |cbn; rewrite Mv; reflexivity].
        eapply mem_keep; [exact (OWN eq_refl)|reflexivity|]. cbn. auto.
      + (* X_Take *) injection St as <- <-. cbn. rewrite Nat.add_0_r. exists c, x. split; [constructor|]. qt; [right; rewrite P; reflexivity| |exact A].
        pose proof (mem_own _ _ _ _ M (OWN eq_refl)) as Ma; rewrite P in Ma; destruct Ma as [Mv Mn].
        eapply mem_keep; [exact (OWN eq_refl)|reflexivity|]. cbn. auto.
    - cbn in St. pose proof (r_at _ _ _ _ R a) as A. pose proof (i_p _ I a) as Pk.
      destruct (pcs s a) eqn:P; try discriminate St. injection St as <- <-.
      assert (W : lw s = Some a) by (apply (i_w _ I); rewrite P; reflexivity).
      pose proof (mem_own _ _ _ _ M W) as Ma. rewrite P in Ma. cbn in Ma. destruct Ma as [Mv Mn].
      cbn in Pk. destruct Pk as [Pv Pf].
      assert (B : bld (g_runs c) = b) by (specialize (O 0 b eq_refl); rewrite Nat.add_0_r in O; congruence).
      assert (F : free c = true) by (eapply nobody; eauto; rewrite A; reflexivity).
      assert (Ef : effect true bld a HNone (op_of m) c =
        Some match b with
             | BOk v => grant a (op_of m) v (one_more (with_val c (Some v)))
             | BErr e => (one_more c, HNone, reading_err (op_of m) e)
             | BPanic => (one_more c, HNone, RPanic)
             end) by (destruct m; cbn; rewrite Mv, Pv, F, B; reflexivity).
      cbn. destruct b as [v|e|].
      + exists c, x. split; [constructor|]. qt; auto.
        eapply mem_keep; cbn; [exact W|reflexivity|]. cbn. rewrite Mv, Pv. repeat split; auto. lia.
      + exists (one_more c), (gset x a (GDone HNone (reading_err (op_of m) e))).
        ef; [auto|exact A|exact Ef| |destruct m; reflexivity].
        eapply mem_keep; cbn; [exact W|reflexivity|]. cbn. split; [congruence|lia].
      + exists (one_more c), (gset x a (GDone HNone RPanic)).
        ef; [auto|exact A|exact Ef| |reflexivity].
        eapply mem_keep; cbn; [exact W|reflexivity|]. cbn. split; [congruence|lia].
    - cbn in St. pose proof (r_at _ _ _ _ R a) as A. destruct (cancel (pcs s a)) as [p|] eqn:C; try discriminate St. injection St as <- <-.
      cbn. rewrite Nat.add_0_r.
      assert (X : exists o, x a = GCalled HNone o /\ awaited o = true).
      { destruct (pcs s a); try discriminate C; cbn in A; eexists; (split; [exact A|]); try destruct m; reflexivity. }
      destruct X as (o & X & Aw). exists c, (gset x a (GDone HNone RCancelled)). split; [apply one; eapply g_cancel; eauto|].
      eapply relabelled; [eassumption|eassumption|reflexivity|auto| |destruct (pcs s a); try discriminate C; injection C as <-; reflexivity|rewrite X; reflexivity].
      unfold mem in *. cbn. destruct (lw s) as [b|] eqn:W; auto. unfold upd.
      destruct (Nat.eqb_spec b a) as [->|N]; auto.
      apply (i_w _ I) in W. destruct (pcs s a); try discriminate C; try discriminate W; injection C as <-; exact M.
  Qed.

  Lemma gruns_app w1 t1 w2 t2 w3 : gruns w1 t1 w2 -> gruns w2 t2 w3 -> gruns w1 (t1 ++ t2) w3.
  Proof.
    induction 1; intros K; cbn; auto. rewrite <- app_assoc. econstructor; eauto.
  Qed.
  Lemma sim_run l : forall n s c x s' t,
    rel n s c x -> run s l = Some (s', t) ->
    (forall i b, nth_error (ends t) i = Some b -> bld (n + i) = b) ->
    exists c' x', gruns (c, x) (visible t) (c', x') /\ rel (n + length (ends t)) s' c' x'.
  Proof.
    induction l as [|y l IH]; cbn; intros n s c x s' t R Rn O.
    - injection Rn as <- <-. exists c, x. cbn. rewrite Nat.add_0_r. split; [constructor|exact R].
    - destruct (step s y) as [[s1 t1]|] eqn:St; try discriminate Rn.
      destruct (run s1 l) as [[s2 t2]|] eqn:Rn'; try discriminate Rn. injection Rn as <- <-.
      unfold ends in O. rewrite flat_map_app in O. fold (ends t1) (ends t2) in O.
      destruct (sim_step _ _ _ _ _ _ _ R St) as (c1 & x1 & G1 & R1).
      { intros i b N. apply O. rewrite nth_error_app1; auto. apply nth_error_Some. congruence. }
      destruct (IH _ _ _ _ _ _ R1 Rn') as (c2 & x2 & G2 & R2).
      { intros i b N. rewrite <- Nat.add_assoc. apply O. rewrite nth_error_app2; [|lia].
        replace (length (ends t1) + i - length (ends t1)) with i by lia. exact N. }
      exists c2, x2. unfold visible, ends. rewrite filter_app, flat_map_app, app_length, Nat.add_assoc.
      split; [eapply gruns_app; eauto|exact R2].
  Qed.
  Lemma runs_counted n s c x : rel n s c x -> g_runs c <= n <= S (g_runs c).
  Proof.
    intros R. pose proof (r_mem _ _ _ _ R) as M. unfold mem in M. destruct (lw s) as [a|]; [|lia].
    destruct (pcs s a); cbn in M; lia.
  Qed.
End Sim.
