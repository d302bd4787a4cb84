(** Invariant of the async lazy container model. *)
From Coq Require Import List Bool Arith Lia.
From Verif Require Import ProxyTypes AsyncProxyModel.
Import ListNotations.

Section Inv.
  Context {V E : Type}.
  Notation st := (st V E).
  Notation pc := (pc V E).

  Inductive lk := LN | LR | LW.

  Definition lk_hold (h : hold) : lk :=
    match h with HNone => LN | HR => LR | HM | HW => LW end.

  (** Which ownership of the lock goes with a program point. *)
  Definition lockof (p : pc) : lk :=
    match p with
    | Hold h => lk_hold h
    | Ret h _ => lk_hold h
    | Drop h => lk_hold h
    | RI_Acq _ => LN
    | RI_Check _ | RI_GetBld _ | RI_Build _ | RI_SetVal _ _ | RI_SetFlag _
    | RI_Done _ | RI_Fail _ _ | RI_Unwind _ | RI_Drop _ | M_Map _ => LW
    | R_Map _ => LR
    | W_Acq | C_Acq | L_Load | K_Acq | D_Acq => LN
    | C_Flag | C_Take | C_Rel _ => LW
    | K_Val | K_Flag _ | K_Rel _ _ | D_Val | D_Rel _ => LR
    | G_Get h => lk_hold h
    | G_Set _ | S_Flag _ | S_Rep _ | X_Flag | X_Take => LW
    end.

  Definition res_ok (r : res V E) : Prop :=
    match r with RClone ov b bs => b = is_some ov /\ bs = true | _ => True end.

  Definition hold_ok (h : hold) (v : option V) (f : bool) : Prop :=
    match h with
    | HNone => True
    | HR | HM => v <> None /\ f = true
    | HW => f = is_some v
    end.

  (** What is known of value and flag at a program point. *)
  Definition pc_ok (p : pc) (v : option V) (f : bool) : Prop :=
    match p with
    | Hold h => hold_ok h v f
    | Drop h => h <> HNone /\ hold_ok h v f
    | Ret h r => hold_ok h v f /\ res_ok r
    | RI_GetBld _ | RI_Build _ | RI_SetVal _ _
    | RI_Fail _ _ | RI_Unwind _ | RI_Drop _ => v = None /\ f = false
    | RI_SetFlag _ => v <> None /\ f = false
    | RI_Done _ | G_Set _ => v <> None /\ f = true
    | R_Map m => (m = MRead \/ m = MTryRead) /\ v <> None /\ f = true
    | M_Map m => (m = MReadMut \/ m = MTryReadMut) /\ v <> None /\ f = true
    | G_Get h => (h = HR \/ h = HM) /\ v <> None /\ f = true
    | C_Take | X_Take => f = false
    | S_Rep _ => f = true
    | C_Rel _ => v = None /\ f = false
    | RI_Check _ | C_Flag | X_Flag | S_Flag _ => f = is_some v
    | K_Flag ov => v = ov
    | K_Rel ov b => v = ov /\ b = is_some ov
    | D_Rel ov => v = ov
    | K_Val | D_Val => True
    | RI_Acq _ | W_Acq | C_Acq | L_Load | K_Acq | D_Acq => True
    end.

  Record inv (s : st) : Prop := mkinv {
    i_b : bset s = true;
    i_w : forall a, lw s = Some a <-> lockof (pcs s a) = LW;
    i_r : forall a, In a (lr s) <-> lockof (pcs s a) = LR;
    i_x : forall a, lw s = Some a -> lr s = [];
    i_f : lw s = None -> flag s = is_some (value s);
    i_p : forall a, pc_ok (pcs s a) (value s) (flag s)
  }.

  Lemma inv_init ov : inv (init ov).
  Proof.
    constructor; cbn; auto; intros; try discriminate; split; try discriminate; tauto.
  Qed.

  Lemma pc_ok_LN p v f v' f' : lockof p = LN -> pc_ok p v f -> pc_ok p v' f'.
  Proof.
    destruct p; cbn; try discriminate; try tauto;
      destruct h; cbn; try discriminate; try tauto;
      intros _ [[Hx|Hx] _]; discriminate Hx.
  Qed.

  Lemma in_drop_reader a b l : In b (drop_reader a l) <-> In b l /\ b <> a.
  Proof.
    unfold drop_reader. rewrite filter_In. split; intros [H1 H2]; split; auto.
    - intros ->. rewrite Nat.eqb_refl in H2. discriminate.
    - apply negb_true_iff, Nat.eqb_neq; auto.
  Qed.

  Lemma alone s a b : inv s -> lockof (pcs s a) = LW -> b <> a -> lockof (pcs s b) = LN.
  Proof.
    intros I Ha Hb. apply (i_w _ I) in Ha.
    pose proof (i_x _ I _ Ha) as Hr.
    destruct (lockof (pcs s b)) eqn:Hl; auto.
    - apply (i_r _ I) in Hl. rewrite Hr in Hl. destruct Hl.
    - apply (i_w _ I) in Hl. congruence.
  Qed.

  (** Changing value/flag is only done by the exclusive owner. *)
  Lemma others_ok s a b v' f' :
    inv s -> lockof (pcs s a) = LW -> b <> a -> pc_ok (pcs s b) v' f'.
  Proof.
    intros I Ha Hb. eapply pc_ok_LN; [eapply alone; eauto | apply (i_p _ I)].
  Qed.

  Lemma flag_r s a : inv s -> lockof (pcs s a) = LR -> flag s = is_some (value s).
  Proof.
    intros I Ha. apply (i_f _ I). destruct (lw s) eqn:Hw; auto.
    apply (i_r _ I) in Ha. rewrite (i_x _ I _ Hw) in Ha. destruct Ha.
  Qed.

  (** Shape of a state after activity [a] moved to [p]. *)
  Lemma inv_move s a p v' f' w' r' :
    inv s ->
    (* the lock before and after *)
    (forall b, b <> a -> (w' = Some b <-> lw s = Some b)) ->
    (w' = Some a <-> lockof p = LW) ->
    (forall b, b <> a -> (In b r' <-> In b (lr s))) ->
    (In a r' <-> lockof p = LR) ->
    (forall b, w' = Some b -> r' = []) ->
    (w' = None -> f' = is_some v') ->
    pc_ok p v' f' ->
    (forall b, b <> a -> pc_ok (pcs s b) v' f') ->
    inv (mkst v' f' (bset s) w' r' (upd (pcs s) a p)).
  Proof.
    intros I W1 W2 R1 R2 X F P1 P2.
    constructor; cbn; unfold upd; auto.
    - apply (i_b _ I).
    - intros b. destruct (Nat.eqb_spec b a) as [->|Hb]; auto.
      rewrite (W1 _ Hb). apply (i_w _ I).
    - intros b. destruct (Nat.eqb_spec b a) as [->|Hb]; auto.
      rewrite (R1 _ Hb). apply (i_r _ I).
    - intros b. destruct (Nat.eqb_spec b a) as [->|Hb]; auto.
  Qed.

  (** Closes the side conditions of [inv_move]. *)
  Ltac fin I :=
    solve [ auto | tauto | congruence | (intros; congruence)
          | (split; congruence) | (intros; split; congruence)
          | (split; [intros []|congruence])
          | (intros; split; [intros []|congruence])
          | (split; [tauto|congruence])
          | (intros; eapply others_ok; eauto)
          | (intros; apply (i_p _ I))
          | (intros; apply (i_f _ I); auto)
          | (intros; apply (i_x _ I); auto) ].

  (** A move that changes neither lock nor memory. *)
  Lemma inv_goto s a p :
    inv s -> lockof p = lockof (pcs s a) -> pc_ok p (value s) (flag s) ->
    inv (set_pc s a p).
  Proof.
    intros I L P. unfold set_pc. apply inv_move; try rewrite L;
      first [apply (i_w _ I) | apply (i_r _ I) | idtac]; try fin I;
      intros; eapply (i_x _ I); eauto.
  Qed.

  (** A move by the exclusive owner, which keeps the lock and writes memory. *)
  Lemma inv_write s a p v' f' :
    inv s -> lockof (pcs s a) = LW -> lockof p = LW -> pc_ok p v' f' ->
    inv (mkst v' f' (bset s) (lw s) (lr s) (upd (pcs s) a p)).
  Proof.
    intros I L L' P. pose proof (proj2 (i_w _ I a) L) as Hw.
    pose proof (i_x _ I _ Hw) as Hr.
    apply inv_move; rewrite ?L', ?Hw, ?Hr; fin I.
  Qed.

  (** The exclusive owner releases the lock. *)
  Lemma inv_release_w s a p :
    inv s -> lockof (pcs s a) = LW -> lockof p = LN -> pc_ok p (value s) (flag s) ->
    flag s = is_some (value s) ->
    inv (mkst (value s) (flag s) (bset s) None (lr s) (upd (pcs s) a p)).
  Proof.
    intros I L L' P F. pose proof (proj2 (i_w _ I a) L) as Hw.
    pose proof (i_x _ I _ Hw) as Hr.
    apply inv_move; rewrite ?L', ?Hw, ?Hr; fin I.
  Qed.

  (** A shared owner releases the lock. *)
  Lemma inv_release_r s a p :
    inv s -> lockof (pcs s a) = LR -> lockof p = LN -> pc_ok p (value s) (flag s) ->
    inv (mkst (value s) (flag s) (bset s) (lw s) (drop_reader a (lr s)) (upd (pcs s) a p)).
  Proof.
    intros I L L' P.
    pose proof (proj2 (i_r _ I a) L) as Hin.
    assert (Hw : lw s = None).
    { destruct (lw s) eqn:Hw; auto. rewrite (i_x _ I _ Hw) in Hin. destruct Hin. }
    apply inv_move; intros; rewrite ?in_drop_reader, ?L', ?Hw in *; fin I.
  Qed.

  (** An idle activity becomes the exclusive owner of a free lock. *)
  Lemma inv_acquire_w s a p :
    inv s -> lw s = None -> lr s = [] ->
    lockof p = LW -> pc_ok p (value s) (flag s) ->
    inv (mkst (value s) (flag s) (bset s) (Some a) [] (upd (pcs s) a p)).
  Proof.
    intros I Hw Hr L' P.
    apply inv_move; rewrite ?L', ?Hw, ?Hr; fin I.
  Qed.

  (** The exclusive owner becomes a shared one. *)
  Lemma inv_downgrade_r s a p :
    inv s -> lockof (pcs s a) = LW -> lockof p = LR -> pc_ok p (value s) (flag s) ->
    flag s = is_some (value s) ->
    inv (mkst (value s) (flag s) (bset s) None (a :: lr s) (upd (pcs s) a p)).
  Proof.
    intros I L L' P F. pose proof (proj2 (i_w _ I a) L) as Hw.
    pose proof (i_x _ I _ Hw) as Hr.
    apply inv_move; rewrite ?L', ?Hw, ?Hr; try fin I.
    - intros b Hb. cbn. intuition congruence.
    - cbn. tauto.
  Qed.

  (** A lock that is not owned exclusively is shared. *)
  Lemma inv_acquire_r s a p :
    inv s -> lockof (pcs s a) = LN -> lw s = None ->
    lockof p = LR -> pc_ok p (value s) (flag s) ->
    inv (mkst (value s) (flag s) (bset s) None (a :: lr s) (upd (pcs s) a p)).
  Proof.
    intros I L Hw L' P.
    apply inv_move; rewrite ?L', ?Hw; try fin I.
    - intros b Hb. cbn. intuition congruence.
    - cbn. tauto.
  Qed.

  Lemma enter_ok h o p v f :
    enter h o = Some p -> hold_ok h v f -> lockof p = lk_hold h /\ pc_ok p v f.
  Proof.
    destruct h, o; cbn; intros H; inversion H; subst; cbn; intros; intuition; discriminate.
  Qed.

  Ltac ex := unfold set_pc, set_lock, set_value, set_flag; cbn [value flag bset lw lr pcs].

  Lemma inv_step s x s' t : inv s -> step s x = Some (s', t) -> inv s'.
  Proof.
    intros I H. destruct x as [a o|a|a b|a]; cbn in H.
    - (* call *)
      destruct (pcs s a) eqn:Hp; try discriminate.
      destruct (enter h o) as [p|] eqn:He; try discriminate.
      injection H as <- <-.
      pose proof (i_p _ I a) as Pa. rewrite Hp in Pa. cbn in Pa.
      destruct (enter_ok _ _ _ _ _ He Pa) as [L P].
      apply inv_goto; auto. rewrite Hp, L. reflexivity.
    - (* code *)
      unfold step_code in H.
      pose proof (i_p _ I a) as Pa.
      pose proof (alone s a) as Al.
      assert (Lw : lockof (pcs s a) = LW -> lw s = Some a) by apply (i_w _ I).
      assert (Fr := flag_r s a I).
      destruct (pcs s a) eqn:Hp; try discriminate; cbn in Pa.
      + (* Ret *)
        injection H as <- <-. apply inv_goto; auto; [rewrite ?Hp; cbn; auto|cbn; tauto].
      + (* Drop *)
        destruct h; try discriminate; injection H as <- <-.
        * ex; apply inv_release_r; auto; rewrite ?Hp; cbn; auto.
        * ex; apply inv_release_w; auto; rewrite ?Hp; cbn; auto; cbn in Pa; intuition.
          destruct (value s); cbn; auto; congruence.
        * ex; apply inv_release_w; auto; rewrite ?Hp; cbn; auto; cbn in Pa; intuition.
      + (* RI_Acq *)
        destruct (lw s) eqn:Hw; try discriminate. destruct (lr s) eqn:Hr; try discriminate.
        injection H as <- <-. ex; apply inv_acquire_w; auto. cbn. apply (i_f _ I); auto.
      + (* RI_Check *)
        destruct (value s) eqn:Hv; injection H as <- <-; apply inv_goto; auto;
          rewrite ?Hp; cbn; auto; cbn; rewrite Hv, Pa; split; auto; discriminate.
      + (* RI_GetBld *)
        rewrite (i_b _ I) in H. injection H as <- <-.
        apply inv_goto; auto; rewrite ?Hp; cbn; auto.
      + (* RI_SetVal *)
        injection H as <- <-. ex; apply inv_write; auto; rewrite ?Hp; cbn; auto.
        cbn. split; [discriminate|tauto].
      + (* RI_SetFlag *)
        injection H as <- <-. ex; apply inv_write; auto; rewrite ?Hp; cbn; auto.
        cbn. tauto.
      + (* RI_Done *)
        assert (F : flag s = is_some (value s)).
        { destruct Pa as [Pv ->]. destruct (value s); auto; congruence. }
        destruct m; injection H as <- <-;
          [ex; apply inv_downgrade_r | ex; apply inv_downgrade_r | apply inv_goto | apply inv_goto
          | ex; apply inv_release_w]; auto;
          rewrite ?Hp; cbn; auto.
      + (* RI_Fail *)
        injection H as <- <-. destruct Pa as [Pv Pf].
        ex; apply inv_release_w; auto; rewrite ?Hp; cbn; auto.
        * split; auto. destruct m; cbn; auto.
        * rewrite Pv, Pf. reflexivity.
      + (* RI_Unwind *)
        injection H as <- <-. destruct Pa as [Pv Pf].
        ex; apply inv_release_w; auto; rewrite ?Hp; cbn; auto.
        rewrite Pv, Pf. reflexivity.
      + (* RI_Drop *)
        injection H as <- <-. destruct Pa as [Pv Pf].
        ex; apply inv_release_w; auto; rewrite ?Hp; cbn; auto.
        rewrite Pv, Pf. reflexivity.
      + (* R_Map *)
        destruct (value s) eqn:Hv; [|intuition congruence].
        injection H as <- <-. apply inv_goto; auto; [rewrite ?Hp; cbn; auto|].
        cbn. rewrite Hv. tauto.
      + (* M_Map *)
        destruct (value s) eqn:Hv; [|intuition congruence].
        injection H as <- <-. apply inv_goto; auto; [rewrite ?Hp; cbn; auto|].
        cbn. rewrite Hv. tauto.
      + (* W_Acq *)
        destruct (lw s) eqn:Hw; try discriminate.
        destruct (lr s) eqn:Hr; try discriminate.
        injection H as <- <-. ex; apply inv_acquire_w; auto. cbn.
        split; auto. apply (i_f _ I); auto.
      + (* C_Acq *)
        destruct (lw s) eqn:Hw; try discriminate.
        destruct (lr s) eqn:Hr; try discriminate.
        injection H as <- <-. ex; apply inv_acquire_w; auto. cbn. apply (i_f _ I); auto.
      + (* C_Flag *)
        injection H as <- <-. ex; apply inv_write; auto; rewrite ?Hp; cbn; auto.
      + (* C_Take *)
        injection H as <- <-. ex; apply inv_write; auto; rewrite ?Hp; cbn; auto.
      + (* C_Rel *)
        injection H as <- <-. destruct Pa as [Pv Pf].
        ex; apply inv_release_w; auto; rewrite ?Hp; cbn; auto.
        rewrite Pv, Pf. reflexivity.
      + (* L_Load *)
        injection H as <- <-. apply inv_goto; auto; [rewrite ?Hp; cbn; auto|]; cbn; auto.
      + (* K_Acq *)
        destruct (lw s) eqn:Hw; try discriminate. injection H as <- <-.
        ex; apply inv_acquire_r; cbn; auto. rewrite ?Hp; cbn; auto.
      + (* K_Val *)
        injection H as <- <-. apply inv_goto; auto; [rewrite ?Hp; cbn; auto|]; cbn; auto.
      + (* K_Flag *)
        injection H as <- <-. apply inv_goto; auto; [rewrite ?Hp; cbn; auto|]. cbn.
        split; auto. rewrite <- Pa. auto.
      + (* K_Rel *)
        injection H as <- <-. ex; apply inv_release_r; auto; rewrite ?Hp; cbn; auto.
        cbn. split; auto. split; [tauto|apply (i_b _ I)].
      + (* D_Acq *)
        destruct (lw s) eqn:Hw; try discriminate. injection H as <- <-.
        ex; apply inv_acquire_r; cbn; auto. rewrite ?Hp; cbn; auto.
      + (* D_Val *)
        injection H as <- <-. apply inv_goto; auto; [rewrite ?Hp; cbn; auto|]; cbn; auto.
      + (* D_Rel *)
        injection H as <- <-. ex; apply inv_release_r; auto; rewrite ?Hp; cbn; auto.
      + (* G_Get *)
        destruct Pa as [Ph [Pv Pf]].
        destruct (value s) eqn:Hv; [|congruence].
        injection H as <- <-. apply inv_goto; auto; [rewrite ?Hp; cbn; auto|].
        cbn. rewrite Hv. destruct Ph as [->| ->]; cbn; auto.
      + (* G_Set *)
        injection H as <- <-. ex; apply inv_write; auto; rewrite ?Hp; cbn; auto.
        cbn. split; auto. split; [discriminate|tauto].
      + (* S_Flag *)
        injection H as <- <-. ex; apply inv_write; auto; rewrite ?Hp; cbn; auto.
      + (* S_Rep *)
        injection H as <- <-. ex; apply inv_write; auto; rewrite ?Hp; cbn; auto.
      + (* X_Flag *)
        injection H as <- <-. ex; apply inv_write; auto; rewrite ?Hp; cbn; auto.
      + (* X_Take *)
        injection H as <- <-. ex; apply inv_write; auto; rewrite ?Hp; cbn; auto.
    - (* builder ends *)
      destruct (pcs s a) eqn:Hp; try discriminate. injection H as <- <-.
      pose proof (i_p _ I a) as Pa. rewrite Hp in Pa. cbn in Pa.
      apply inv_goto; auto; rewrite ?Hp; destruct b; auto.
    - (* cancel *)
      destruct (cancel (pcs s a)) as [p|] eqn:Hc; try discriminate. injection H as <- <-.
      pose proof (i_p _ I a) as Pa.
      destruct (pcs s a) eqn:Hp; try discriminate; injection Hc as <-; cbn in Pa;
        apply inv_goto; auto; rewrite ?Hp; cbn; auto.
  Qed.

  Lemma inv_run (l : list (action V E)) : forall s s' t, inv s -> run s l = Some (s', t) -> inv s'.
  Proof.
    induction l as [|x l IH]; cbn; intros s s' t I H.
    - injection H as <- <-. auto.
    - destruct (step s x) as [[s1 t1]|] eqn:Hs; try discriminate.
      destruct (run s1 l) as [[s2 t2]|] eqn:Hr; try discriminate.
      injection H as <- <-. eapply IH; [eapply inv_step; eauto|eauto].
  Qed.

  Lemma run_app (l1 : list (action V E)) : forall l2 (s : st) s2 t,
    run s (l1 ++ l2) = Some (s2, t) <->
    exists s1 t1 t2, run s l1 = Some (s1, t1) /\ run s1 l2 = Some (s2, t2) /\ t = t1 ++ t2.
  Proof.
    induction l1 as [|x l IH]; cbn; intros l2 s s2 t.
    - split.
      + intros H. exists s, [], t. auto.
      + intros (s1 & t1 & t2 & H1 & H2 & ->). injection H1 as <- <-. auto.
    - destruct (step s x) as [[s1 t1]|] eqn:Hs.
      2:{ split; [discriminate|]. intros (? & ? & ? & H & _). discriminate. }
      split.
      + intros H. destruct (run s1 (l ++ l2)) as [[s3 t3]|] eqn:Hr; try discriminate.
        injection H as <- <-. apply IH in Hr. destruct Hr as (s4 & t4 & t5 & H1 & H2 & ->).
        exists s4, (t1 ++ t4), t5. rewrite H1. repeat split; auto. now rewrite app_assoc.
      + intros (s3 & t3 & t4 & H1 & H2 & ->).
        destruct (run s1 l) as [[s4 t4']|] eqn:Hr; try discriminate.
        injection H1 as <- <-.
        assert (run s1 (l ++ l2) = Some (s2, t4' ++ t4)) as ->.
        { apply IH. exists s4, t4', t4. auto. }
        now rewrite app_assoc.
  Qed.
End Inv.
