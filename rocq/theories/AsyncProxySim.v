(** Forward simulation: every step of the async container is matched by the atomic
    cell of AtomicCell.v. *)
From Coq Require Import List Bool Arith Lia.
From Verif Require Import ProxyTypes AsyncProxyModel AsyncProxyInv AtomicCell.
Import ListNotations.

Section Sim.
  Context {V E : Type}.
  Notation st := (st V E).
  Notation pc := (pc V E).
  Notation cell := (cell V E).

  Definition opm (m : rmode) : op V :=
    match m with
    | MRead => ORead | MTryRead => OTryRead | MReadMut => OReadMut
    | MTryReadMut => OTryReadMut | MLazy => OLazyInit
    end.

  (** The content of the atomic cell that goes with a state: between the two writes
      (flag and value) of an update, the update counts as done when the flag is
      written. *)
  Definition absf (w : option aid) (f : aid -> pc) (v : option V) : option V :=
    match w with
    | None => v
    | Some a =>
        match f a with
        | RI_SetFlag _ => None
        | C_Take | X_Take => None
        | S_Rep x => Some x
        | _ => v
        end
    end.

  Definition stat_ok (v : option V) (p : pc) (x : status V E) : Prop :=
    match p with
    | Hold h => x = SIdle h
    | Ret h r => x = SDone h r
    | Drop h => x = SCalled h GDrop
    | RI_Acq m | RI_Check m | RI_GetBld m => x = SCalled HNone (opm m)
    | RI_Build m => x = SBuilding (opm m)
    | RI_SetVal m w => x = SBuilt (opm m) w
    | RI_SetFlag m => exists w, v = Some w /\ x = SBuilt (opm m) w
    | RI_Done m | R_Map m | M_Map m =>
        x = SCalled HNone (opm m) \/ x = SEnsured (opm m)
    | RI_Fail m e => x = SDone HNone (fail_res m e)
    | RI_Unwind _ => x = SDone HNone RPanic
    | RI_Drop _ => x = SDone HNone RCancelled
    | W_Acq => x = SCalled HNone OWrite
    | C_Acq | C_Flag => x = SCalled HNone OClear
    | C_Take => x = SDone HNone (RVal v)
    | C_Rel old => x = SDone HNone (RVal old)
    | L_Load => x = SCalled HNone OIsSet
    | K_Acq | K_Val => x = SCalled HNone OClone
    | K_Flag ov => x = SDone HNone (RClone ov (is_some ov) true)
    | K_Rel ov b => x = SDone HNone (RClone ov b true)
    | D_Acq | D_Val => x = SCalled HNone ODebug
    | D_Rel ov => x = SDone HNone (RVal ov)
    | G_Get h => x = SCalled h GGet
    | G_Set w => x = SCalled HM (GSet w)
    | S_Flag w => x = SCalled HW (GStore w)
    | S_Rep w => x = SDone HW (RVal v)
    | X_Flag => x = SCalled HW GClear
    | X_Take => x = SDone HW (RVal v)
    end.

  Definition bpc (p : pc) : bool :=
    match p with RI_Build _ | RI_SetVal _ _ | RI_SetFlag _ => true | _ => false end.

  Record sim (s : st) (c : cell) : Prop := mksim {
    m_c : content c = absf (lw s) (pcs s) (value s);
    m_s : forall a, stat_ok (value s) (pcs s a) (stat c a);
    m_b : forall a, building c = Some a <-> bpc (pcs s a) = true
  }.

  Lemma sim_init ov : sim (init ov) (cell_init ov).
  Proof. constructor; cbn; auto. intros; split; discriminate. Qed.

  Lemma stat_ok_other v v' p x : lockof p <> LW -> stat_ok v p x -> stat_ok v' p x.
  Proof. destruct p; cbn; auto; congruence. Qed.

  Lemma bpc_lw p : bpc p = true -> lockof p = LW.
  Proof. destruct p; cbn; congruence. Qed.

  Lemma absf_other s a p v :
    inv s -> lockof (pcs s a) <> LW -> absf (lw s) (upd (pcs s) a p) v = absf (lw s) (pcs s) v.
  Proof.
    intros I H. unfold absf, upd. destruct (lw s) as [b|] eqn:Hw; auto.
    destruct (Nat.eqb_spec b a) as [->|]; auto.
    exfalso. apply H. apply (i_w _ I). auto.
  Qed.

  Lemma sim_move s c a p v' f' w' r' c' :
    sim s c -> inv s ->
    (v' = value s \/ lockof (pcs s a) = LW) ->
    content c' = absf w' (upd (pcs s) a p) v' ->
    (forall b, b <> a -> stat c' b = stat c b) ->
    stat_ok v' p (stat c' a) ->
    (building c' = Some a <-> bpc p = true) ->
    (forall b, b <> a -> (building c' = Some b <-> building c = Some b)) ->
    sim (mkst v' f' (bset s) w' r' (upd (pcs s) a p)) c'.
  Proof.
    intros M I Hv Hc Hs Ha Hb Hbo. constructor; cbn; auto.
    - intros b. unfold upd. destruct (Nat.eqb_spec b a) as [->|Hn]; auto.
      rewrite Hs by auto. destruct Hv as [->|L]; [apply (m_s _ _ M)|].
      eapply stat_ok_other; [|apply (m_s _ _ M)].
      rewrite (alone _ _ _ I L Hn). discriminate.
    - intros b. unfold upd. destruct (Nat.eqb_spec b a) as [->|Hn]; auto.
      rewrite Hbo by auto. apply (m_b _ _ M).
  Qed.

  Lemma eqb_refl_if A (a : aid) (x y : A) : (if Nat.eqb a a then x else y) = x.
  Proof. now rewrite Nat.eqb_refl. Qed.
  Lemma eqb_neq_if A (a b : aid) (x y : A) : b <> a -> (if Nat.eqb b a then x else y) = y.
  Proof. intros H. apply Nat.eqb_neq in H. now rewrite H. Qed.

  (** A step the specification does not notice. *)
  Lemma sim_stutter s c a p f' w' r' :
    sim s c -> inv s ->
    absf w' (upd (pcs s) a p) (value s) = absf (lw s) (pcs s) (value s) ->
    (forall x, stat_ok (value s) (pcs s a) x -> stat_ok (value s) p x) ->
    bpc p = bpc (pcs s a) ->
    sim (mkst (value s) f' (bset s) w' r' (upd (pcs s) a p)) c.
  Proof.
    intros M I Hc Hs Hb. eapply sim_move; eauto.
    - rewrite (m_c _ _ M). auto.
    - apply Hs, (m_s _ _ M).
    - rewrite Hb. apply (m_b _ _ M).
    - tauto.
  Qed.

  Lemma cruns1 k (c : cell) t c' : cstep k c t c' -> cruns k c t c'.
  Proof. intros H. rewrite <- (app_nil_r t). eapply cr_step; eauto. constructor. Qed.

  (** A step matched by one step of the specification that leaves [building] alone. *)
  Lemma sim_put s c a p v' f' w' r' x ov :
    sim s c -> inv s ->
    (v' = value s \/ lockof (pcs s a) = LW) ->
    ov = absf w' (upd (pcs s) a p) v' ->
    stat_ok v' p x ->
    bpc p = bpc (pcs s a) ->
    sim (mkst v' f' (bset s) w' r' (upd (pcs s) a p)) (put (fill c ov) a x).
  Proof.
    intros M I Hv Hc Hs Hb. eapply sim_move; eauto; cbn.
    - intros b Hn. now rewrite eqb_neq_if.
    - now rewrite eqb_refl_if.
    - rewrite Hb. apply (m_b _ _ M).
    - tauto.
  Qed.
  Lemma fill_id (c : cell) : fill c (content c) = c.
  Proof. destruct c; reflexivity. Qed.

  Lemma enter_stat h o p v :
    enter h o = Some p -> callable h o = true /\ stat_ok v p (SCalled h o) /\ bpc p = false.
  Proof. destruct h, o; cbn; intros H; inversion H; subst; cbn; auto. Qed.

  Lemma reading_opm m : reading (opm m) = true.
  Proof. destruct m; auto. Qed.
  Lemma reading_err_opm m (e : E) : reading_err (opm m) e = fail_res m e.
  Proof. destruct m; auto. Qed.

  Lemma nobuild s c a :
    inv s -> sim s c -> lw s = Some a -> bpc (pcs s a) = false -> building c = None.
  Proof.
    intros I M Hw Hb. destruct (building c) as [b|] eqn:Hc; auto.
    pose proof (proj1 (m_b _ _ M b) Hc) as Hb'. pose proof (bpc_lw _ Hb') as L.
    apply (i_w _ I) in L. congruence.
  Qed.

  Lemma answer k (c : cell) a m w h r :
    stat c a = SCalled HNone (opm m) \/ stat c a = SEnsured (opm m) ->
    content c = Some w -> reading_ok (opm m) w = (h, r) ->
    cstep k c [] (put c a (SDone h r)).
  Proof.
    intros Hs Hc Hr.
    replace h with (fst (@reading_ok V E (opm m) w)) by (rewrite Hr; auto).
    replace r with (snd (@reading_ok V E (opm m) w)) by (rewrite Hr; auto).
    destruct Hs as [Hs|Hs].
    - eapply c_hit; eauto. apply reading_opm.
    - eapply c_ensured; eauto.
  Qed.

  Lemma flag_abs s : inv s -> flag s = is_some (absf (lw s) (pcs s) (value s)).
  Proof.
    intros I. destruct (lw s) as [a|] eqn:Hw; cbn; [|apply (i_f _ I); auto].
    pose proof (proj1 (i_w _ I a) Hw) as L. pose proof (i_p _ I a) as P.
    destruct (pcs s a); cbn in L, P |- *; try discriminate;
      try (destruct h; cbn in L, P; try discriminate);
      destruct (value s); cbn in *; intuition congruence.
  Qed.

  Local Hint Extern 1 (stat_ok _ _ _) =>
    solve [cbn in *; first [reflexivity | assumption | left; reflexivity | right; reflexivity
                           | left; assumption | right; assumption]] : core.
  Local Hint Extern 1 (bpc _ = _) =>
    solve [cbn in *; first [reflexivity | assumption | left; reflexivity | right; reflexivity
                           | left; assumption | right; assumption]] : core.
  Ltac ex := unfold set_pc, set_lock, set_value, set_flag; cbn [value flag bset lw lr pcs].
  Ltac here := rewrite ?eqb_refl_if; cbn.
  Ltac stut c := exists c; split; [constructor | ex; apply sim_stutter; auto].
  Ltac absw := unfold absf, upd; rewrite ?eqb_refl_if.

  Definition abandons (x : action V E) : bool :=
    match x with ACancel _ => true | _ => false end.

  (** A call that is answered now: the spec steps, [x] is the new status. *)
  Lemma sim_step k s c x s' t :
    (abandons x = true -> k = true) -> inv s -> sim s c -> step s x = Some (s', t) ->
    exists c', cruns k c t c' /\ sim s' c'.
  Proof.
    intros Hk I M H. destruct x as [a o|a|a b|a]; cbn in H, Hk.
    - (* call *)
      destruct (pcs s a) eqn:Hp; try discriminate.
      destruct (enter h o) as [p|] eqn:He; try discriminate.
      injection H as <- <-.
      destruct (enter_stat _ _ _ (value s) He) as (Hc & Hs & Hb).
      pose proof (m_s _ _ M a) as Ma. rewrite ?Hp in Ma. cbn in Ma.
      exists (put c a (SCalled h o)). split; [apply cruns1; econstructor; eauto|].
      ex. rewrite <- (fill_id c). apply sim_put; auto.
      + rewrite (m_c _ _ M). unfold absf, upd. destruct (lw s) as [b|] eqn:Hw; auto.
        destruct (Nat.eqb_spec b a) as [->|]; auto.
        rewrite ?Hp. destruct h, o; inversion He; reflexivity.
      + rewrite ?Hp. auto.
    - (* code *)
      unfold step_code in H.
      pose proof (i_p _ I a) as Pa. pose proof (m_s _ _ M a) as Ma.
      pose proof (m_c _ _ M) as Mc.
      assert (Lw : lockof (pcs s a) = LW -> lw s = Some a) by apply (i_w _ I).
      assert (Lr : lockof (pcs s a) = LR -> In a (lr s)) by apply (i_r _ I).
      assert (Xw : lockof (pcs s a) <> LW -> lockof (pcs s a) <> LN -> lw s = None).
      { intros H1 H2. destruct (lw s) as [b|] eqn:Hw; auto.
        destruct (Nat.eqb_spec b a) as [->|Hn].
        - exfalso. apply H1. apply (i_w _ I); auto.
        - exfalso. apply H2. apply (alone s b a I); auto. apply (i_w _ I); auto. }
      assert (Ao : forall p v, lockof (pcs s a) <> LW ->
                absf (lw s) (upd (pcs s) a p) v = absf (lw s) (pcs s) v)
        by (intros; apply absf_other; auto).
      assert (Fn : lw s = None -> flag s = is_some (value s)) by apply (i_f _ I).
      destruct (pcs s a) eqn:Hp; try discriminate; cbn in Pa, Ma, Ao, Lw, Lr, Xw;
        try specialize (Lw eq_refl); try specialize (Lr eq_refl);
        try (specialize (Xw ltac:(discriminate) ltac:(discriminate)));
        try (assert (Ao' := fun p v => Ao p v ltac:(discriminate)); clear Ao).
      + (* Ret *)
        injection H as <- <-. exists (put c a (SIdle h)). split; [apply cruns1; econstructor; eauto|].
        ex. rewrite <- (fill_id c). apply sim_put; auto.
        * rewrite Mc. unfold absf, upd. destruct (lw s) as [b|] eqn:Hw; auto.
          destruct (Nat.eqb_spec b a) as [->|]; auto. rewrite ?Hp. auto.
        * rewrite ?Hp; auto.
      + (* Drop *)
        assert (Hs : simple h GDrop (content c) = Some (content c, HNone, @RUnit V E)) by reflexivity.
        destruct h; try discriminate; injection H as <- <-;
          (eexists; split; [apply cruns1; eapply c_simple; eauto|]);
          ex; apply sim_put; auto; rewrite ?Hp; auto.
        * rewrite Mc. symmetry. rewrite Xw by discriminate. reflexivity.
        * rewrite Mc. rewrite Lw by reflexivity. cbn. rewrite ?Hp. auto.
        * rewrite Mc. rewrite Lw by reflexivity. cbn. rewrite ?Hp. auto.
      + (* RI_Acq *)
        destruct (lw s) eqn:Hw; try discriminate. destruct (lr s) eqn:Hr; try discriminate.
        injection H as <- <-. stut c; rewrite ?Hw, ?Hp; auto. absw. reflexivity.
      + (* RI_Check *)
        destruct (value s) eqn:Hv; injection H as <- <-; stut c; rewrite ?Hp, ?Lw; auto;
          absw; rewrite ?Hp; auto.
      + (* RI_GetBld *)
        rewrite (i_b _ I) in H. injection H as <- <-.
        destruct Pa as [Pv Pf].
        eexists; split; [apply cruns1; eapply (c_build k c a); eauto|].
        * apply reading_opm.
        * rewrite Mc, Lw. cbn. rewrite ?Hp. auto.
        * destruct (building c) as [b|] eqn:Hb; auto.
          pose proof (proj1 (m_b _ _ M b) Hb) as Hb'.
          destruct (Nat.eqb_spec b a) as [->|Hn].
          -- rewrite ?Hp in Hb'. discriminate.
          -- apply bpc_lw in Hb'. apply (i_w _ I) in Hb'. congruence.
        * ex. eapply sim_move; eauto; cbn.
          -- rewrite Mc, Lw. absw. rewrite ?Hp. auto.
          -- intros b Hn. now rewrite eqb_neq_if.
          -- rewrite eqb_refl_if. auto.
          -- tauto.
          -- intros b Hn. split; [congruence|].
             intros Hb. pose proof (proj1 (m_b _ _ M b) Hb) as Hb'.
             apply bpc_lw in Hb'. apply (i_w _ I) in Hb'. congruence.
      + (* RI_SetVal *)
        injection H as <- <-. exists c. split; [constructor|].
        ex. destruct Pa as [Pv Pf]. eapply sim_move; eauto.
        * right; rewrite ?Hp; auto.
        * rewrite Mc, Lw. absw. rewrite ?Hp. auto.
        * cbn. eauto.
        * rewrite (m_b _ _ M), Hp. reflexivity.
        * tauto.
      + (* RI_SetFlag *)
        injection H as <- <-. destruct Ma as (w & Hv & Ma).
        eexists; split; [apply cruns1; eapply (c_install k c a); eauto|].
        * rewrite Mc, Lw. cbn. rewrite ?Hp. auto.
        * ex. eapply sim_move; eauto; cbn.
          -- rewrite Lw. absw. auto.
          -- intros b Hn. now rewrite eqb_neq_if.
          -- rewrite eqb_refl_if. auto.
          -- split; discriminate.
          -- intros b Hn. split; [discriminate|].
             intros Hb. pose proof (proj1 (m_b _ _ M b) Hb) as Hb'.
             apply bpc_lw in Hb'. apply (i_w _ I) in Hb'. congruence.
      + (* RI_Done *)
        destruct m; injection H as <- <-;
          try (stut c; rewrite ?Hp, ?Lw; auto; absw; rewrite ?Hp; auto; fail).
        destruct Pa as [Pv Pf]. destruct (value s) as [w|] eqn:Hv; [|congruence].
        assert (Hc : content c = Some w) by (rewrite Mc, Lw; cbn; rewrite ?Hp; auto).
        exists (put c a (SDone HNone RUnit)). split.
        { apply cruns1, (answer k c a MLazy w); auto. }
        ex. rewrite <- (fill_id c). apply sim_put; auto; rewrite ?Hp, ?Hc, ?Hv; auto.
      + (* RI_Fail *)
        injection H as <- <-. stut c; rewrite ?Hp; auto. rewrite Lw. absw. rewrite ?Hp. auto.
      + (* RI_Unwind *)
        injection H as <- <-. stut c; rewrite ?Hp; auto. rewrite Lw. absw. rewrite ?Hp. auto.
      + (* RI_Drop *)
        injection H as <- <-. stut c; rewrite ?Hp; auto. rewrite Lw. absw. rewrite ?Hp. auto.
      + (* R_Map *)
        destruct Pa as [Pm [Pv Pf]]. destruct (value s) as [w|] eqn:Hv; [|congruence].
        injection H as <- <-.
        assert (Hc : content c = Some w) by (rewrite Mc, Xw, ?Hv; reflexivity).
        exists (put c a (SDone HR (RGuard w))). split.
        { apply cruns1, (answer k c a m w); auto. destruct Pm as [->| ->]; auto. }
        ex. rewrite <- (fill_id c). apply sim_put; auto; rewrite ?Hp, ?Xw, ?Hc, ?Hv; auto.
      + (* M_Map *)
        destruct Pa as [Pm [Pv Pf]]. destruct (value s) as [w|] eqn:Hv; [|congruence].
        injection H as <- <-.
        assert (Hc : content c = Some w) by (rewrite Mc, Lw; cbn; rewrite ?Hp; auto).
        exists (put c a (SDone HM (RGuard w))). split.
        { apply cruns1, (answer k c a m w); auto. destruct Pm as [->| ->]; auto. }
        ex. rewrite <- (fill_id c). apply sim_put; auto; rewrite ?Hp, ?Lw, ?Hc, ?Hv; auto.
        absw. auto.
      + (* W_Acq *)
        destruct (lw s) eqn:Hw; try discriminate.
        destruct (lr s) eqn:Hr; try discriminate.
        injection H as <- <-. 
        eexists; split; [apply cruns1; eapply (c_simple k c a); [eauto|reflexivity|auto]|].
        ex. apply sim_put; auto; rewrite ?Hp, ?Mc; auto. absw. auto.
      + (* C_Acq *)
        destruct (lw s) eqn:Hw; try discriminate.
        destruct (lr s) eqn:Hr; try discriminate.
        injection H as <- <-. stut c; rewrite ?Hp, ?Hw; auto. absw. reflexivity.
      + (* C_Flag *)
        injection H as <- <-.
        assert (Nb : building c = None) by (apply (nobuild s c a); auto; rewrite Hp; auto).
        eexists; split; [apply cruns1; eapply (c_simple k c a); [eauto|reflexivity|auto]|].
        ex. apply sim_put; auto; rewrite ?Hp, ?Lw; auto.
        * absw. auto.
        * cbn. rewrite Mc, Lw. cbn. rewrite ?Hp. auto.
      + (* C_Take *)
        injection H as <- <-. exists c. split; [constructor|]. ex.
        eapply sim_move; eauto; rewrite ?Hp; auto.
        * rewrite Mc, Lw. absw. rewrite ?Hp. auto.
        * rewrite (m_b _ _ M), Hp. reflexivity.
        * tauto.
      + (* C_Rel *)
        injection H as <- <-. stut c; rewrite ?Hp; auto. rewrite Lw. absw. rewrite ?Hp. auto.
      + (* L_Load *)
        injection H as <- <-.
        exists (put c a (SDone HNone (RBool (flag s)))). split.
        { apply cruns1. rewrite <- (fill_id c) at 2. eapply (c_simple k c a); eauto; cbn; auto. rewrite Mc, <- flag_abs; auto. }
        ex. rewrite <- (fill_id c). apply sim_put; auto; rewrite ?Hp, ?Mc, ?Ao'; auto.
      + (* K_Acq *)
        destruct (lw s) eqn:Hw; try discriminate. injection H as <- <-.
        stut c; rewrite ?Hp, ?Hw; auto.
      + (* K_Val *)
        injection H as <- <-.
        eexists; split; [apply cruns1; eapply (c_simple k c a); [eauto|reflexivity|auto]|].
        ex. apply sim_put; auto; rewrite ?Hp, ?Xw; auto.
        * rewrite Mc, Xw. auto.
        * cbn. rewrite Mc, Xw. auto.
      + (* K_Flag *)
        injection H as <- <-. stut c; rewrite ?Hp, ?Xw; auto.
        cbn. intros x ->. rewrite Fn, Pa by auto. auto.
      + (* K_Rel *)
        injection H as <- <-. rewrite (i_b _ I). stut c; rewrite ?Hp, ?Xw; auto.
      + (* D_Acq *)
        destruct (lw s) eqn:Hw; try discriminate. injection H as <- <-.
        stut c; rewrite ?Hp, ?Hw; auto.
      + (* D_Val *)
        injection H as <- <-.
        eexists; split; [apply cruns1; eapply (c_simple k c a); [eauto|reflexivity|auto]|].
        ex. apply sim_put; auto; rewrite ?Hp, ?Xw; auto.
        * rewrite Mc, Xw. auto.
        * cbn. rewrite Mc, Xw. auto.
      + (* D_Rel *)
        injection H as <- <-. stut c; rewrite ?Hp, ?Xw; auto.
      + (* G_Get *)
        destruct Pa as [Ph [Pv Pf]].
        destruct (value s) as [w|] eqn:Hv; [|congruence]. injection H as <- <-.
        assert (Hc : content c = Some w).
        { rewrite Mc. destruct Ph as [->| ->].
          - rewrite Xw by discriminate. auto.
          - rewrite Lw by auto. cbn. rewrite ?Hp. auto. }
        exists (put c a (SDone h (RVal (Some w)))). split.
        { apply cruns1. rewrite <- (fill_id c) at 2. eapply (c_simple k c a); eauto; cbn; auto. rewrite Hc. auto. }
        ex. rewrite <- (fill_id c). apply sim_put; auto; rewrite ?Hp, ?Hc, ?Hv; auto.
        destruct Ph as [->| ->].
        * rewrite Xw by discriminate. auto.
        * rewrite Lw by auto. absw. auto.
      + (* G_Set *)
        injection H as <- <-. destruct Pa as [Pv Pf].
        destruct (value s) as [w|] eqn:Hv; [|congruence].
        assert (Hc : content c = Some w) by (rewrite Mc, Lw; cbn; rewrite ?Hp; auto).
        eexists; split.
        * apply cruns1; eapply (c_simple k c a); [eauto| |].
          -- cbn. rewrite Hc. reflexivity.
          -- left. apply (nobuild s c a); auto. rewrite Hp; auto.
        * ex. apply sim_put; auto; rewrite ?Hp, ?Lw; auto. absw. auto.
      + (* S_Flag *)
        injection H as <- <-.
        assert (Nb : building c = None) by (apply (nobuild s c a); auto; rewrite Hp; auto).
        eexists; split; [apply cruns1; eapply (c_simple k c a); [eauto|reflexivity|auto]|].
        ex. apply sim_put; auto; rewrite ?Hp, ?Lw; auto.
        * absw. auto.
        * cbn. rewrite Mc, Lw. cbn. rewrite ?Hp. auto.
      + (* S_Rep *)
        injection H as <- <-. exists c. split; [constructor|]. ex.
        eapply sim_move; eauto; rewrite ?Hp; auto.
        * rewrite Mc, Lw. absw. rewrite ?Hp. auto.
        * rewrite (m_b _ _ M), Hp. reflexivity.
        * tauto.
      + (* X_Flag *)
        injection H as <- <-.
        assert (Nb : building c = None) by (apply (nobuild s c a); auto; rewrite Hp; auto).
        eexists; split; [apply cruns1; eapply (c_simple k c a); [eauto|reflexivity|auto]|].
        ex. apply sim_put; auto; rewrite ?Hp, ?Lw; auto.
        * absw. auto.
        * cbn. rewrite Mc, Lw. cbn. rewrite ?Hp. auto.
      + (* X_Take *)
        injection H as <- <-. exists c. split; [constructor|]. ex.
        eapply sim_move; eauto; rewrite ?Hp; auto.
        * rewrite Mc, Lw. absw. rewrite ?Hp. auto.
        * rewrite (m_b _ _ M), Hp. reflexivity.
        * tauto.
    - (* builder ends *)
      destruct (pcs s a) eqn:Hp; try discriminate. injection H as <- <-.
      pose proof (i_p _ I a) as Pa. pose proof (m_s _ _ M a) as Ma.
      pose proof (m_c _ _ M) as Mc.
      assert (Lw : lw s = Some a) by (apply (i_w _ I); rewrite Hp; auto).
      rewrite Hp in Pa, Ma. cbn in Pa, Ma.
      assert (Hb : forall d, d <> a -> building c <> Some d).
      { intros d Hn Hb. pose proof (proj1 (m_b _ _ M d) Hb) as Hb'.
        apply bpc_lw in Hb'. apply (i_w _ I) in Hb'. congruence. }
      destruct b as [v|e|].
      + exists (put c a (SBuilt (opm m) v)). split; [apply cruns1; econstructor; auto|].
        ex. rewrite <- (fill_id c). apply sim_put; auto; rewrite ?Hp; auto.
        rewrite Mc, Lw. absw. rewrite Hp. auto.
      + exists (put (lock_build c None) a (SDone HNone (fail_res m e))). split.
        { apply cruns1. rewrite <- reading_err_opm. constructor; auto. }
        ex. eapply sim_move; eauto; cbn.
        * rewrite Mc, Lw. absw. rewrite Hp. auto.
        * intros b Hn. now rewrite eqb_neq_if.
        * now rewrite eqb_refl_if.
        * split; discriminate.
        * intros b Hn. split; [discriminate|]. intros H. exfalso. eapply Hb; eauto.
      + exists (put (lock_build c None) a (SDone HNone RPanic)). split.
        { apply cruns1. econstructor; eauto. }
        ex. eapply sim_move; eauto; cbn.
        * rewrite Mc, Lw. absw. rewrite Hp. auto.
        * intros b Hn. now rewrite eqb_neq_if.
        * now rewrite eqb_refl_if.
        * split; discriminate.
        * intros b Hn. split; [discriminate|]. intros H. exfalso. eapply Hb; eauto.
    - (* cancel *)
      specialize (Hk eq_refl).
      destruct (cancel (pcs s a)) as [p|] eqn:Hc; try discriminate. injection H as <- <-.
      pose proof (m_s _ _ M a) as Ma. pose proof (m_c _ _ M) as Mc.
      assert (Lw : lockof (pcs s a) = LW -> lw s = Some a) by apply (i_w _ I).
      assert (Ao : forall p v, lockof (pcs s a) <> LW ->
                absf (lw s) (upd (pcs s) a p) v = absf (lw s) (pcs s) v)
        by (intros; apply absf_other; auto).
      destruct (pcs s a) eqn:Hp; try discriminate; injection Hc as <-; cbn in Ma, Lw, Ao;
        try specialize (Lw eq_refl).
      + eexists; split; [apply cruns1; eapply (c_cancel k c a); eauto|].
        ex. rewrite <- (fill_id c). apply sim_put; auto; rewrite ?Hp; auto.
        rewrite Mc, Ao; auto; discriminate.
      + eexists; split; [apply cruns1; eapply (c_cancel k c a); eauto|].
        ex. rewrite <- (fill_id c). apply sim_put; auto; rewrite ?Hp; auto.
        rewrite Mc, Lw. absw. rewrite Hp. auto.
      + assert (Hb : forall d, d <> a -> building c <> Some d).
        { intros d Hn Hb. pose proof (proj1 (m_b _ _ M d) Hb) as Hb'.
          apply bpc_lw in Hb'. apply (i_w _ I) in Hb'. congruence. }
        eexists; split; [apply cruns1; eapply (c_cancel_build k c a); eauto|].
        ex. eapply sim_move; eauto; cbn.
        * rewrite Mc, Lw. absw. rewrite Hp. auto.
        * intros b Hn. now rewrite eqb_neq_if.
        * now rewrite eqb_refl_if.
        * split; discriminate.
        * intros b Hn. split; [discriminate|]. intros H. exfalso. eapply Hb; eauto.
      + eexists; split; [apply cruns1; eapply (c_cancel k c a); eauto|].
        ex. rewrite <- (fill_id c). apply sim_put; auto; rewrite ?Hp; auto.
        rewrite Mc, Ao; auto; discriminate.
      + eexists; split; [apply cruns1; eapply (c_cancel k c a); eauto|].
        ex. rewrite <- (fill_id c). apply sim_put; auto; rewrite ?Hp; auto.
        rewrite Mc, Ao; auto; discriminate.
  Qed.

  Lemma cruns_app k (c : cell) t1 c1 t2 c2 :
    cruns k c t1 c1 -> cruns k c1 t2 c2 -> cruns k c (t1 ++ t2) c2.
  Proof.
    induction 1; cbn; auto. intros H'. rewrite <- app_assoc. econstructor; eauto.
  Qed.

  Lemma sim_run k (l : list (action V E)) : forall (s : st) c s' t,
    (existsb abandons l = true -> k = true) -> inv s -> sim s c -> run s l = Some (s', t) ->
    exists c', cruns k c t c' /\ sim s' c'.
  Proof.
    induction l as [|x l IH]; cbn; intros s c s' t Hk I M H.
    - injection H as <- <-. exists c. split; auto. constructor.
    - destruct (step s x) as [[s1 t1]|] eqn:Hs; try discriminate.
      destruct (run s1 l) as [[s2 t2]|] eqn:Hr; try discriminate.
      injection H as <- <-.
      destruct (sim_step k _ _ _ _ _ ltac:(intros Ha; apply Hk; rewrite Ha; auto) I M Hs) as (c1 & R1 & M1).
      destruct (IH _ _ _ _ ltac:(intros Ha; apply Hk; rewrite Ha, orb_true_r; auto) (inv_step _ _ _ _ I Hs) M1 Hr) as (c2 & R2 & M2).
      exists c2. split; auto. eapply cruns_app; eauto.
  Qed.
End Sim.
