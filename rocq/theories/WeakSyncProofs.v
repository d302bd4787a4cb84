(** Lemmas for C76: every run on weak memory is a run of SyncProxyModel.v. *)
From Coq Require Import List Bool Arith Lia.
From Verif Require Import ProxyTypes SyncProxyModel SyncProxyInv SyncProxyProofs WeakMem WeakMemFacts WeakSyncModel WeakSpec.
Import ListNotations.

Section Weak.
  Context {V E : Type}.
  Notation st := (st V E).
  Notation pc := (pc V E).
  Notation wst := (wst V E).

  (** ** The lock *)
  Definition own_lk (l : lk) : own :=
    match l with LN => Free | LR => Shared | LU => Upgradable | LW => Exclusive end.
  Lemma own_is (s : st) a : inv s -> own_of s a = own_lk (lockof (pcs s a)).
  Proof.
    intros I. unfold own_of.
    destruct (lockof (pcs s a)) eqn:L; simpl.
    - assert (W : lw s <> Some a) by (rewrite (i_w _ I); congruence).
      assert (U : lu s <> Some a) by (rewrite (i_u _ I); congruence).
      assert (R : ~ In a (lr s)) by (rewrite (i_r _ I); congruence).
      replace (match lw s with Some b => Nat.eqb b a | None => false end) with false
        by (destruct (lw s) as [b|]; [symmetry; apply Nat.eqb_neq; congruence|reflexivity]).
      replace (match lu s with Some b => Nat.eqb b a | None => false end) with false
        by (destruct (lu s) as [b|]; [symmetry; apply Nat.eqb_neq; congruence|reflexivity]).
      destruct (existsb (Nat.eqb a) (lr s)) eqn:X; [apply memb_in in X; tauto|reflexivity].
    - assert (W : lw s <> Some a) by (rewrite (i_w _ I); congruence).
      assert (U : lu s <> Some a) by (rewrite (i_u _ I); congruence).
      assert (R : In a (lr s)) by (rewrite (i_r _ I); congruence).
      replace (match lw s with Some b => Nat.eqb b a | None => false end) with false
        by (destruct (lw s) as [b|]; [symmetry; apply Nat.eqb_neq; congruence|reflexivity]).
      replace (match lu s with Some b => Nat.eqb b a | None => false end) with false
        by (destruct (lu s) as [b|]; [symmetry; apply Nat.eqb_neq; congruence|reflexivity]).
      apply memb_in in R. rewrite R. reflexivity.
    - assert (W : lw s <> Some a) by (rewrite (i_w _ I); congruence).
      assert (U : lu s = Some a) by (rewrite (i_u _ I); congruence).
      replace (match lw s with Some b => Nat.eqb b a | None => false end) with false
        by (destruct (lw s) as [b|]; [symmetry; apply Nat.eqb_neq; congruence|reflexivity]).
      rewrite U, Nat.eqb_refl. reflexivity.
    - assert (W : lw s = Some a) by (rewrite (i_w _ I); congruence).
      rewrite W, Nat.eqb_refl. reflexivity.
  Qed.

  (** ** What a state on weak memory stands for *)
  Inductive same_pc : pc -> pc -> Prop :=
  | same_is p : same_pc p p
  | same_predicate h b b' : same_pc (Ret h (RBool b)) (Ret h (RBool b')).
  Lemma same_lock p q : same_pc p q -> lockof p = lockof q.
  Proof. intros []; reflexivity. Qed.
  Record means (w : wst) (s : st) : Prop := mk_means {
    m_inv : inv s;
    m_b : bset (core w) = bset s;
    m_w : lw (core w) = lw s;
    m_u : lu (core w) = lu s;
    m_r : lr (core w) = lr s;
    m_p : forall a, same_pc (pcs (core w) a) (pcs s a);
    m_f : exists l n, flags w = l ++ [(n, flag s)];
    m_v : exists l n, values w = l ++ [(n, value s)];
    m_know : forall a, lockof (pcs s a) <> LN -> incl (ids (flags w) ++ ids (values w)) (knows w a);
    m_kw : lw s = None -> incl (ids (flags w) ++ ids (values w)) (kw w);
    m_ex : forall a, lw s = Some a -> incl (kw w ++ kr w) (knows w a);
    m_wr : forall n, In (n, true) (log w) -> In n (ids (values w));
    m_rd : forall n, In (n, false) (log w) -> In n (kw w ++ kr w) \/
             exists a, lockof (pcs s a) <> LN /\ In n (knows w a);
    m_racy : racy w = false
  }.
  Lemma means_init ov : means (winit ov) (init ov).
  Proof.
    constructor; simpl; auto; try (intros; contradiction); try (intros; discriminate).
    - apply inv_init.
    - intros. constructor.
    - exists [], 0. reflexivity.
    - exists [], 0. reflexivity.
    - intros _. intros n [<-|[<-|[]]]; left; reflexivity.
  Qed.

  (** The step of the code is the same on both sides. *)
  Lemma code_same (c s : st) a f v c' evs :
    bset c = bset s -> lw c = lw s -> lu c = lu s -> lr c = lr s -> pcs c a = pcs s a ->
    (forall b, same_pc (pcs c b) (pcs s b)) ->
    (loads_flag (touch_of (pcs c a)) = true -> pcs c a <> L_Load -> f = flag s) ->
    (loads_value (touch_of (pcs c a)) = true -> v = value s) ->
    step_code (set_flag (set_value c v) f) a = Some (c', evs) ->
    exists s', step_code s a = Some (s', evs) /\
      bset c' = bset s' /\ lw c' = lw s' /\ lu c' = lu s' /\ lr c' = lr s' /\
      (forall b, same_pc (pcs c' b) (pcs s' b)) /\
      (if stores_flag (touch_of (pcs c a)) then flag s' = flag c' else flag s' = flag s) /\
      (if stores_value (touch_of (pcs c a)) then value s' = value c' else value s' = value s) /\
      (f = flag s -> (forall b, pcs c b = pcs s b) -> forall b, pcs c' b = pcs s' b).
  Proof.
    intros B W U R P SP F Vv. unfold step_code. cbn [pcs set_flag set_value]. rewrite P in *.
    assert (SP' : forall p b, same_pc (upd (pcs c) a p b) (upd (pcs s) a p b)).
    { intros p b. unfold upd. destruct (Nat.eqb b a); [constructor|apply SP]. }
    destruct (pcs s a) eqn:Q; cbn [touch_of loads_flag loads_value stores_flag stores_value] in *; try discriminate;
    try (assert (f = flag s) by (apply F; [reflexivity|discriminate])); try specialize (Vv eq_refl);
    cbn [value flag bset lw lu lr set_flag set_value set_lock set_pc]; subst;
    rewrite ?B, ?W, ?U, ?R;
    repeat match goal with
    | |- (match ?x with _ => _ end) = Some _ -> _ =>
        let K := fresh "K" in destruct x eqn:K; try discriminate
    end;
    intros H; injection H as <- <-; eexists; (split; [reflexivity|]);
    cbn [value flag bset lw lu lr pcs set_flag set_value set_lock set_pc]; subst; auto 10;
    repeat split; auto; try congruence;
    try (intros d; unfold upd; destruct (Nat.eqb d a); [constructor|apply SP]);
    intros X1 X2 d; try rewrite X1; unfold upd; destruct (Nat.eqb d a); auto.
  Qed.

  Lemma stores_exclusive (p : pc) : stores_flag (touch_of p) || stores_value (touch_of p) = true -> lockof p = LW.
  Proof. destruct p; simpl; try discriminate; reflexivity. Qed.
  Lemma loads_owned (p : pc) v f : pc_ok p v f -> loads_value (touch_of p) = true -> lockof p <> LN.
  Proof. destruct p; simpl; try discriminate. intros ([-> | ->] & _) _; discriminate. Qed.
  Lemma flag_owned (p : pc) : loads_flag (touch_of p) = true -> p <> L_Load -> lockof p <> LN.
  Proof. destruct p; simpl; try discriminate. congruence. Qed.
  Lemma stores_stay (s : st) a s' t : step_code s a = Some (s', t) ->
    stores_flag (touch_of (pcs s a)) || stores_value (touch_of (pcs s a)) = true -> lockof (pcs s' a) = LW.
  Proof.
    unfold step_code. destruct (pcs s a) eqn:Q; simpl; try discriminate; intros H _; injection H as <- <-; simpl;
      unfold upd; rewrite Nat.eqb_refl; reflexivity.
  Qed.
  Lemma same_core w s : means w s -> forall a, own_of (core w) a = own_lk (lockof (pcs s a)).
  Proof.
    intros M a. rewrite <- (own_is s a (m_inv _ _ M)). unfold own_of.
    rewrite (m_w _ _ M), (m_u _ _ M), (m_r _ _ M). reflexivity.
  Qed.
  Lemma updk_same f a k : updk f a k a = k.
  Proof. unfold updk. rewrite Nat.eqb_refl. reflexivity. Qed.
  Lemma updk_other f a k b : b <> a -> updk f a k b = f b.
  Proof. intros N. unfold updk. apply Nat.eqb_neq in N. rewrite N. reflexivity. Qed.


  (** The knowledge after a step, whatever the step. *)
  Lemma means_step w s a w' s' k1 k2 kw' kr' :
    means w s -> inv s' ->
    (forall b, b <> a -> pcs s' b = pcs s b) ->
    bset (core w') = bset s' -> lw (core w') = lw s' -> lu (core w') = lu s' -> lr (core w') = lr s' ->
    (forall b, same_pc (pcs (core w') b) (pcs s' b)) ->
    incl (knows w a) k1 ->
    (flags w' = flags w /\ flag s' = flag s \/
     lockof (pcs s a) = LW /\ lockof (pcs s' a) = LW /\ In (next w) k1 /\ flags w' = flags w ++ [(next w, flag s')]) ->
    (values w' = values w /\ value s' = value s \/
     lockof (pcs s a) = LW /\ lockof (pcs s' a) = LW /\ In (next w) k1 /\ values w' = values w ++ [(next w, value s')]) ->
    transfer (own_lk (lockof (pcs s a))) (own_lk (lockof (pcs s' a))) k1 (kw w) (kr w) = (k2, kw', kr') ->
    (forall b, knows w' b = updk (knows w) a k2 b) -> kw w' = kw' -> kr w' = kr' ->
    (forall n, In (n, true) (log w') -> In (n, true) (log w) \/ In n (ids (values w'))) ->
    (forall n, In (n, false) (log w') -> In (n, false) (log w) \/ lockof (pcs s a) <> LN /\ In n k1) ->
    racy w' = false ->
    means w' s'.
  Proof.
    intros M I' PO B W U R SP K1 FL VL T KN KW KR LW1 LR1 RC. pose proof (m_inv _ _ M) as I.
    pose proof (transfer_know (own_lk (lockof (pcs s a))) (own_lk (lockof (pcs s' a))) k1 (kw w) (kr w)) as TK.
    pose proof (transfer_lock (own_lk (lockof (pcs s a))) (own_lk (lockof (pcs s' a))) k1 (kw w) (kr w)) as TWR.
    rewrite T in TK, TWR. destruct TWR as [TW TR].
    assert (W2 : lockof (pcs s a) = LW -> incl (ids (flags w') ++ ids (values w')) k1).
    { intros L. assert (N : incl (ids (flags w) ++ ids (values w)) k1)
        by (intros n J; apply K1, (m_know _ _ M); [congruence|exact J]).
      apply incl_app; [destruct FL as [[-> _]|(_ & _ & J & ->)]|destruct VL as [[-> _]|(_ & _ & J & ->)]].
      - intros n X. apply N, in_or_app. auto.
      - unfold ids. rewrite map_app. intros n X. apply in_app_or in X. destruct X as [X|[<-|[]]]; [|exact J].
        apply N, in_or_app. auto.
      - intros n X. apply N, in_or_app. auto.
      - unfold ids. rewrite map_app. intros n X. apply in_app_or in X. destruct X as [X|[<-|[]]]; [|exact J].
        apply N, in_or_app. auto. }
    assert (S0 : lockof (pcs s a) <> LW -> flags w' = flags w /\ values w' = values w).
    { intros L. split; [destruct FL as [[X _]|(X & _)]|destruct VL as [[X _]|(X & _)]]; congruence. }
    assert (NW : lockof (pcs s a) = LN -> lockof (pcs s' a) <> LN -> lw s = None).
    { intros L L'. destruct (lw s) as [c|] eqn:X; [|reflexivity]. exfalso.
      assert (N : c <> a) by (intros ->; apply (i_w _ I) in X; congruence).
      assert (X' : lw s' = Some c). { apply (i_w _ I'). rewrite (PO c N). apply (i_w _ I), X. }
      apply (i_w _ I') in X'. apply L', (alone s' c a I' X'). congruence. }
    constructor; auto.
    - destruct FL as [[-> ->]|(_ & _ & _ & ->)]; [apply (m_f _ _ M)|eexists _, _; reflexivity].
    - destruct VL as [[-> ->]|(_ & _ & _ & ->)]; [apply (m_v _ _ M)|eexists _, _; reflexivity].
    - intros b L. rewrite KN. destruct (Nat.eq_dec b a) as [->|N].
      + rewrite updk_same. destruct (lockof (pcs s a)) eqn:A.
        * destruct (S0 ltac:(discriminate)) as [-> ->]. intros n J.
          assert (X : In n (kw w)) by (apply (m_kw _ _ M); [apply NW; auto|exact J]).
          destruct (lockof (pcs s' a)); simpl in T; try congruence; injection T as <- _ _; apply in_or_app; auto.
          right. apply in_or_app. auto.
        * destruct (S0 ltac:(discriminate)) as [-> ->]. intros n J. apply TK, K1, (m_know _ _ M); [congruence|exact J].
        * destruct (S0 ltac:(discriminate)) as [-> ->]. intros n J. apply TK, K1, (m_know _ _ M); [congruence|exact J].
        * intros n J. apply TK, W2; auto.
      + rewrite updk_other by exact N. rewrite (PO b N) in L.
        destruct S0 as [-> ->]; [|apply (m_know _ _ M); exact L].
        intros X. apply L, (alone s a b I X N).
    - intros Z. rewrite KW. destruct (lockof (pcs s a)) eqn:A.
      4:{ intros n J. assert (X : In n k1) by (apply W2; auto).
          assert (L : lockof (pcs s' a) <> LW) by (rewrite <- (i_w _ I'); congruence).
          destruct (lockof (pcs s' a)); simpl in T; try congruence; injection T as _ <- _; apply in_or_app; auto. }
      all: destruct (S0 ltac:(discriminate)) as [-> ->]; intros n J; apply TW, (m_kw _ _ M); [|exact J].
      all: destruct (lw s) as [c|] eqn:X; [|reflexivity]; exfalso.
      all: assert (N : c <> a) by (intros ->; apply (i_w _ I) in X; congruence).
      all: assert (X' : lw s' = Some c) by (apply (i_w _ I'); rewrite (PO c N); apply (i_w _ I), X); congruence.
    - intros c Z. rewrite KN, KW, KR. destruct (Nat.eq_dec c a) as [->|N].
      + rewrite updk_same. apply (i_w _ I') in Z. rewrite Z in T. simpl in T.
        destruct (lockof (pcs s a)) eqn:A; simpl in T; injection T as <- <- <-; intros n J.
        1-3: apply in_or_app; auto.
        apply K1, (m_ex _ _ M); [apply (i_w _ I); exact A|exact J].
      + rewrite updk_other by exact N. pose proof Z as Z0. apply (i_w _ I') in Z.
        pose proof (alone s' c a I' Z ltac:(congruence)) as A'.
        rewrite (PO c N) in Z. pose proof (alone s c a I Z ltac:(congruence)) as A.
        rewrite A, A' in T. simpl in T. injection T as _ <- <-. apply (m_ex _ _ M), (i_w _ I), Z.
    - intros n J. destruct (LW1 n J) as [X|X]; [|exact X]. apply (m_wr _ _ M) in X.
      destruct VL as [[-> _]|(_ & _ & _ & ->)]; [exact X|]. unfold ids. rewrite map_app. apply in_or_app. auto.
    - intros n J. rewrite KW, KR.
      assert (KE : (exists c, lockof (pcs s' c) <> LN /\ In n (updk (knows w) a k2 c)) ->
                   exists c, lockof (pcs s' c) <> LN /\ In n (knows w' c))
        by (intros (c & C1 & C2); exists c; rewrite KN; auto).
      enough (X : In n (kw' ++ kr') \/ exists c, lockof (pcs s' c) <> LN /\ In n (updk (knows w) a k2 c))
        by (destruct X; auto).
      assert (AA : forall b, lockof (pcs s b) <> LN -> In n (if Nat.eqb b a then k1 else knows w b) ->
                In n (kw' ++ kr') \/ exists c, lockof (pcs s' c) <> LN /\ In n (updk (knows w) a k2 c)).
      { intros b L X. destruct (Nat.eqb b a) eqn:Y.
        - apply Nat.eqb_eq in Y. subst b. destruct (lockof (pcs s' a)) eqn:A'.
          2-4: right; exists a; split; [congruence|]; rewrite updk_same; apply TK, X.
          left. destruct (lockof (pcs s a)); simpl in T; try congruence; injection T as _ <- <-;
            rewrite !in_app_iff; auto.
        - apply Nat.eqb_neq in Y. right. exists b. rewrite (PO b Y), updk_other by exact Y. auto. }
      destruct (LR1 n J) as [X|[L X]].
      + destruct (m_rd _ _ M n X) as [Y|(b & L & Y)].
        * left. apply in_app_iff in Y. apply in_app_iff. destruct Y as [Y|Y]; [left; apply TW|right; apply TR]; exact Y.
        * apply (AA b L). destruct (Nat.eqb b a) eqn:Z; [|exact Y]. apply Nat.eqb_eq in Z. subst b. apply K1, Y.
      + apply (AA a L). rewrite Nat.eqb_refl. exact X.
  Qed.

  Lemma no_race w s a wr : means w s -> lockof (pcs s a) <> LN -> (wr = true -> lockof (pcs s a) = LW) ->
    races (knows w a) (log w) wr = false.
  Proof.
    intros M L X. destruct (races (knows w a) (log w) wr) eqn:R; [|reflexivity]. exfalso.
    apply existsb_exists in R. destruct R as ([n b] & J & R). simpl in R. apply andb_true_iff in R.
    destruct R as [R1 R2]. apply negb_true_iff in R2.
    assert (K : In n (knows w a)); [|apply memb_in in K; congruence].
    destruct b.
    - apply (m_know _ _ M a L), in_or_app. right. apply (m_wr _ _ M), J.
    - rewrite orb_false_r in R1. specialize (X R1). destruct (m_rd _ _ M n J) as [Y|(c & C & Y)].
      + apply (m_ex _ _ M a); [apply (i_w _ (m_inv _ _ M)), X|exact Y].
      + destruct (Nat.eq_dec c a) as [->|N]; [exact Y|]. exfalso.
        apply C, (alone s a c (m_inv _ _ M) X N).
  Qed.

  Lemma wcode_means w s a i j w' t : means w s -> wcode w a i j = Some (w', t) ->
    exists s' t', step_code s a = Some (s', t') /\ Forall2 alike t t' /\ means w' s'.
  Proof.
    intros M H. unfold wcode in H. pose proof (m_inv _ _ M) as I.
    destruct (m_f _ _ M) as (fl & fn & F). destruct (m_v _ _ M) as (vl & vn & Vv).
    assert (SPa := m_p _ _ M a).
    assert (Q : pcs (core w) a = pcs s a \/ exists h b b', pcs (core w) a = Ret h (RBool b) /\ pcs s a = Ret h (RBool b'))
      by (destruct SPa; [left; reflexivity|right; eauto]).
    destruct Q as [Q|(h & b & b' & Q1 & Q2)].
    2:{ (* the answer of the predicate is handed out *)
      rewrite Q1 in H. simpl in H. unfold step_code in H. cbn [pcs set_flag set_value] in H. rewrite Q1 in H.
      set (c := set_pc _ a _) in H.
      assert (O : own_of c a = own_of (core w) a) by reflexivity.
      rewrite O in H. rewrite (same_core _ _ M a), Q2 in H.
      assert (T : transfer (own_lk (lockof (Ret h (RBool b') : pc))) (own_lk (lockof (Ret h (RBool b') : pc)))
                    (knows w a) (kw w) (kr w) = (knows w a, kw w, kr w)) by (destruct h; reflexivity).
      rewrite T in H. injection H as <- <-.
      assert (SC : step_code s a = Some (set_pc s a (Hold h), [EvRet a (RBool b')])) by (unfold step_code; rewrite Q2; reflexivity).
      eexists _, _. split; [exact SC|]. split; [constructor; [constructor|constructor]|].
      assert (I' := inv_step s (AStep a) _ _ I SC).
      eapply (means_step w s a _ _ (knows w a) (knows w a) (kw w) (kr w) M I'); simpl;
        try reflexivity; try (apply M); auto.
      - intros d N. unfold upd. apply Nat.eqb_neq in N. rewrite N. reflexivity.
      - intros d. unfold upd. destruct (Nat.eqb d a); [constructor|apply (m_p _ _ M)].
      - apply incl_refl.
      - rewrite Q2. unfold upd. rewrite Nat.eqb_refl. destruct h; reflexivity.
      - rewrite orb_false_r. apply M. }
    destruct (if loads_flag (touch_of (pcs (core w) a)) then load (knows w a) (flags w) i else Some (0, flag (core w)))
      as [f|] eqn:LF; [|discriminate].
    destruct (if loads_value (touch_of (pcs (core w) a)) then load (knows w a) (values w) i else Some (0, value (core w)))
      as [v|] eqn:LV; [|discriminate].
    destruct (step_code (set_flag (set_value (core w) (snd v)) (snd f)) a) as [[c evs]|] eqn:SC; [|discriminate].
    assert (KF : lockof (pcs s a) <> LN -> In fn (knows w a) /\ In vn (knows w a)).
    { intros L. pose proof (m_know _ _ M a L) as K. rewrite F, Vv in K. unfold ids in K. rewrite !map_app in K. simpl in K.
      split; apply K; rewrite !in_app_iff; simpl; auto. }
    destruct (code_same (core w) s a (snd f) (snd v) c evs) as (s' & SC' & B' & W' & U' & R' & SP' & FF & VV & _);
      try (apply M); auto.
    { intros L N. rewrite L in LF. rewrite F in LF. rewrite Q in L, N. destruct (KF (flag_owned _ L N)) as [K _].
      destruct (load_known _ fl (fn, flag s) _ _ K LF) as [-> _]. reflexivity. }
    { intros L. rewrite L in LV. rewrite Vv in LV. rewrite Q in L.
      destruct (KF (loads_owned _ _ _ (i_p _ I a) L)) as [_ K].
      destruct (load_known _ vl (vn, value s) _ _ K LV) as [-> _]. reflexivity. }
    rewrite Q in *. assert (I' := inv_step s (AStep a) _ _ I SC').
    assert (OA : own_of c a = own_lk (lockof (pcs s' a))).
    { rewrite <- (own_is s' a I'). unfold own_of. rewrite W', U', R'. reflexivity. }
    rewrite OA, (same_core _ _ M a) in H.
    remember (match touch_of (pcs s a) with TNone => knows w a | TLoadFlag => fst f :: knows w a | _ => next w :: knows w a end)
      as k1 eqn:K1.
    assert (KI : incl (knows w a) k1) by (subst k1; destruct (touch_of (pcs s a)); intros n J; simpl; auto).
    destruct (if stores_flag (touch_of (pcs s a)) then store (knows w a) (flags w) j (next w, flag c) else Some (flags w))
      as [fl'|] eqn:SF; [|discriminate].
    destruct (if stores_value (touch_of (pcs s a)) then store (knows w a) (values w) j (next w, value c) else Some (values w))
      as [vl'|] eqn:SV; [|discriminate].
    destruct (transfer (own_lk (lockof (pcs s a))) (own_lk (lockof (pcs s' a))) k1 (kw w) (kr w)) as [[k2 kw'] kr'] eqn:T.
    injection H as <- <-. exists s', evs. split; [exact SC'|]. split.
    { clear. induction evs; constructor; [constructor|assumption]. }
    assert (XF : fl' = flags w /\ flag s' = flag s \/
       lockof (pcs s a) = LW /\ lockof (pcs s' a) = LW /\ In (next w) k1 /\ fl' = flags w ++ [(next w, flag s')]).
    { destruct (stores_flag (touch_of (pcs s a))) eqn:X; [right|left; split; [congruence|exact FF]].
      assert (L : lockof (pcs s a) = LW) by (apply stores_exclusive; rewrite X; reflexivity).
      split; [exact L|]. split; [apply (stores_stay _ _ _ _ SC'); rewrite X; reflexivity|].
      split; [subst k1; destruct (touch_of (pcs s a)); try discriminate; left; reflexivity|].
      rewrite F in *. destruct (KF ltac:(congruence)) as [K _]. rewrite FF.
      apply (store_known _ fl (fn, flag s) _ _ _ K SF). }
    assert (XV : vl' = values w /\ value s' = value s \/
       lockof (pcs s a) = LW /\ lockof (pcs s' a) = LW /\ In (next w) k1 /\ vl' = values w ++ [(next w, value s')]).
    { destruct (stores_value (touch_of (pcs s a))) eqn:X; [right|left; split; [congruence|exact VV]].
      assert (L : lockof (pcs s a) = LW) by (apply stores_exclusive; rewrite X, orb_true_r; reflexivity).
      split; [exact L|]. split; [apply (stores_stay _ _ _ _ SC'); rewrite X, orb_true_r; reflexivity|].
      split; [subst k1; destruct (touch_of (pcs s a)); try discriminate; left; reflexivity|].
      rewrite Vv in *. destruct (KF ltac:(congruence)) as [_ K]. rewrite VV.
      apply (store_known _ vl (vn, value s) _ _ _ K SV). }
    assert (TL : loads_value (touch_of (pcs s a)) || stores_value (touch_of (pcs s a)) = true ->
                 lockof (pcs s a) <> LN /\ In (next w) k1).
    { intros X. split.
      - apply orb_true_iff in X. destruct X as [X|X]; [apply (loads_owned _ _ _ (i_p _ I a) X)|].
        rewrite (stores_exclusive (pcs s a)); [discriminate|]. rewrite X, orb_true_r. reflexivity.
      - subst k1. destruct (touch_of (pcs s a)); try discriminate; left; reflexivity. }
    eapply (means_step w s a _ _ k1 k2 kw' kr' M I'); simpl; auto.
    - intros d N. apply (step_other s (AStep a) s' evs d SC'). exact N.
    - intros n J. destruct (loads_value (touch_of (pcs s a)) || stores_value (touch_of (pcs s a))) eqn:X; [|left; exact J].
      destruct J as [J|J]; [|left; exact J]. injection J as <- J. right.
      rewrite J in SV. unfold store in SV. destruct (some_known _ _); [discriminate|]. injection SV as <-.
      unfold ids. rewrite map_app. apply in_or_app. right. left. reflexivity.
    - intros n J. destruct (loads_value (touch_of (pcs s a)) || stores_value (touch_of (pcs s a))) eqn:X; [|left; exact J].
      destruct J as [J|J]; [|left; exact J]. injection J as <- J. right. apply TL. reflexivity.
    - rewrite (m_racy _ _ M). simpl.
      destruct (loads_value (touch_of (pcs s a)) || stores_value (touch_of (pcs s a))) eqn:X; [|reflexivity].
      destruct (TL eq_refl) as [L _]. apply (no_race _ _ _ _ M L). intros Y.
      apply stores_exclusive. rewrite Y, orb_true_r. reflexivity.
  Qed.
  Lemma wstep_means w s x w' t : means w s -> wstep w x = Some (w', t) ->
    exists s' t', run s (strong [x]) = Some (s', t') /\ Forall2 alike t t' /\ means w' s'.
  Proof.
    intros M H. assert (NOP : forall x i j, (forall a, x <> AStep a) -> wstep w (WDo x i j) = Some (w', t) ->
      exists s' t', step s x = Some (s', t') /\ Forall2 alike t t' /\ means w' s').
    { clear H. intros x0 i j N H.
      assert (H' : match step (core w) x0 with
                   | Some (c, evs) => Some (mkw c (flags w) (values w) (knows w) (kw w) (kr w) (next w) (log w) (racy w), evs)
                   | None => None end = Some (w', t)) by (destruct x0; try exact H; exfalso; eapply N; reflexivity).
      clear H. destruct (step (core w) x0) as [[c evs]|] eqn:SC; [|discriminate]. injection H' as <- <-.
      assert (X : exists a p, step s x0 = Some (set_pc s a p, evs) /\ c = set_pc (core w) a p /\ lockof p = lockof (pcs s a)).
      { destruct x0 as [a o|a|a b]; [|exfalso; eapply N; reflexivity|]; simpl in *; pose proof (m_p _ _ M a) as P.
        - destruct (pcs (core w) a) eqn:Q; try discriminate. inversion P as [q X Y|]; subst. destruct (enter h o) as [p|] eqn:En; [|discriminate].
          injection SC as <- <-. exists a, p. repeat split. rewrite <- Y. simpl.
          destruct h, o; try discriminate; injection En as <-; reflexivity.
        - destruct (pcs (core w) a) eqn:Q; try discriminate. inversion P as [q X Y|]; subst. injection SC as <- <-.
          eexists a, _. split; [reflexivity|]. split; [reflexivity|]. rewrite <- Y. destruct b; reflexivity. }
      destruct X as (a & p & SC' & -> & L). assert (I' := inv_step s x0 _ _ (m_inv _ _ M) SC').
      eexists _, _. split; [exact SC'|]. split; [clear; induction evs; constructor; [constructor|assumption]|].
      eapply (means_step w s a _ _ (knows w a) (knows w a) (kw w) (kr w) M I'); simpl;
        try reflexivity; try (apply M); auto.
      - intros d Nd. unfold upd. apply Nat.eqb_neq in Nd. rewrite Nd. reflexivity.
      - intros d. unfold upd. destruct (Nat.eqb d a); [constructor|apply (m_p _ _ M)].
      - apply incl_refl.
      - unfold upd. rewrite Nat.eqb_refl, L. destruct (lockof (pcs s a)); reflexivity.
      - intros d. unfold updk. destruct (Nat.eqb d a) eqn:X; [apply Nat.eqb_eq in X; subst|]; reflexivity. }
    destruct x as [[a o|a|a b] i j|a b].
    - destruct (NOP (ACall a o) i j) as (s' & t' & S1 & A & M'); [discriminate|exact H|].
      exists s', t'. simpl. cbn [step] in S1. rewrite S1, app_nil_r. auto.
    - simpl in H. destruct (wcode_means _ _ _ _ _ _ _ M H) as (s' & t' & S1 & A & M').
      exists s', t'. simpl. rewrite S1, app_nil_r. auto.
    - destruct (NOP (ABuilt a b) i j) as (s' & t' & S1 & A & M'); [discriminate|exact H|].
      exists s', t'. simpl. cbn [step] in S1. rewrite S1, app_nil_r. auto.
    - simpl in H. injection H as <- <-. exists s, []. split; [reflexivity|]. split; [constructor|].
      destruct M. constructor; simpl; auto.
      + intros c L. unfold updk. destruct (Nat.eqb c b) eqn:X; [|apply m_know0, L]. apply Nat.eqb_eq in X. subst c.
        intros n J. apply in_or_app. right. apply m_know0; assumption.
      + intros c L. unfold updk. destruct (Nat.eqb c b) eqn:X; [|apply m_ex0, L]. apply Nat.eqb_eq in X. subst c.
        intros n J. apply in_or_app. right. apply (m_ex0 b L n J).
      + intros n J. destruct (m_rd0 n J) as [X|(c & L & X)]; [left; exact X|]. right. exists c. split; [exact L|].
        unfold updk. destruct (Nat.eqb c b) eqn:Y; [|exact X]. apply Nat.eqb_eq in Y. subst c. apply in_or_app. auto.
  Qed.
  Lemma strong_app l1 l2 : strong (l1 ++ l2) = strong l1 ++ @strong V E l2.
  Proof. apply flat_map_app. Qed.
  Lemma tells_app l1 l2 : tells (l1 ++ l2) = tells l1 ++ @tells V E l2.
  Proof. apply flat_map_app. Qed.
  Lemma run_then (l1 : list (action V E)) : forall l2 s s1 t1 s2 t2,
    run s l1 = Some (s1, t1) -> run s1 l2 = Some (s2, t2) -> run s (l1 ++ l2) = Some (s2, t1 ++ t2).
  Proof.
    induction l1 as [|x l1 IH]; intros l2 s s1 t1 s2 t2 H1 H2; simpl in *.
    - injection H1 as -> <-. exact H2.
    - destruct (step s x) as [[s' t']|]; [|discriminate]. destruct (run s' l1) as [[s'' t'']|] eqn:R; [|discriminate].
      injection H1 as -> <-. rewrite (IH _ _ _ _ _ _ R H2). rewrite app_assoc. reflexivity.
  Qed.
  Lemma wrun_means l : forall w s w' t, means w s -> wrun w l = Some (w', t) ->
    exists s' t', run s (strong l) = Some (s', t') /\ Forall2 alike t t' /\ means w' s'.
  Proof.
    induction l as [|x l IH]; intros w s w' t M H; simpl in H.
    - injection H as <- <-. exists s, []. split; [reflexivity|]. split; [constructor|exact M].
    - destruct (wstep w x) as [[w1 t1]|] eqn:S1; [|discriminate].
      destruct (wrun w1 l) as [[w2 t2]|] eqn:R; [|discriminate]. injection H as <- <-.
      destruct (wstep_means _ _ _ _ _ M S1) as (s1 & u1 & R1 & A1 & M1).
      destruct (IH _ _ _ _ M1 R) as (s2 & u2 & R2 & A2 & M2).
      exists s2, (u1 ++ u2). split; [|split; [apply Forall2_app; assumption|exact M2]].
      change (x :: l) with ([x] ++ l). rewrite strong_app. eapply run_then; eassumption.
  Qed.

  (** ** How old the answer of the predicate can be *)
  Lemma knows_grow (w : wst) x w' t a : wstep w x = Some (w', t) -> incl (knows w a) (knows w' a).
  Proof.
    destruct x as [[c o|c|c b] i j|c b]; simpl.
    - destruct (pcs (core w) c) eqn:Q; try discriminate. destruct (enter h o); [|discriminate].
      intros H. injection H as <- _. apply incl_refl.
    - unfold wcode. destruct (if loads_flag _ then _ else _) as [f|]; [|discriminate].
      destruct (if loads_value _ then _ else _) as [v|]; [|discriminate].
      destruct (step_code _ c) as [[c' evs]|]; [|discriminate].
      destruct (if stores_flag _ then _ else _) as [fl|]; [|discriminate].
      destruct (if stores_value _ then _ else _) as [vl|]; [|discriminate].
      match goal with |- context [transfer ?o ?o' ?k ?x ?y] =>
        pose proof (transfer_know o o' k x y) as T; destruct (transfer o o' k x y) as [[k2 kw'] kr'];
        assert (K : incl (knows w c) k) by (destruct (touch_of (pcs (core w) c)); intros n J; simpl; auto) end.
      intros H. injection H as <- _. simpl. unfold updk. destruct (Nat.eqb a c) eqn:X; [|apply incl_refl].
      apply Nat.eqb_eq in X. subst c. intros n J. apply T, K, J.
    - destruct (pcs (core w) c) eqn:Q; try discriminate. intros H. injection H as <- _. apply incl_refl.
    - intros H. injection H as <- _. simpl. unfold updk. destruct (Nat.eqb a b) eqn:X; [|apply incl_refl].
      apply Nat.eqb_eq in X. subst b. intros n J. apply in_or_app. auto.
  Qed.
  Lemma tell_known (w : wst) c d w' t : wstep w (WTell c d) = Some (w', t) -> incl (knows w c) (knows w' d).
  Proof.
    simpl. intros H. injection H as <- _. simpl. rewrite updk_same. intros n J. apply in_or_app. auto.
  Qed.
  (** The flag only gets writes at the end; they are the flags of the other run. *)
  Lemma flags_grow w s x w' t s' : means w s -> wstep w x = Some (w', t) -> means w' s' ->
    flags w' = flags w \/ exists n, flags w' = flags w ++ [(n, flag s')].
  Proof.
    intros M H M'. destruct x as [[c o|c|c b] i j|c b]; simpl in H.
    - destruct (pcs (core w) c) eqn:Q; try discriminate. destruct (enter h o); [|discriminate].
      injection H as <- _. auto.
    - destruct (m_f _ _ M) as (fl & fn & F). destruct (m_f _ _ M') as (fl' & fn' & F').
      unfold wcode in H. destruct (if loads_flag _ then _ else _) as [f|]; [|discriminate].
      destruct (if loads_value _ then _ else _) as [v|]; [|discriminate].
      destruct (step_code _ c) as [[c' evs]|]; [|discriminate].
      destruct (if stores_flag _ then _ else _) as [gl|] eqn:SF; [|discriminate].
      destruct (if stores_value _ then _ else _) as [vl|]; [|discriminate].
      destruct (transfer _ _ _ _ _) as [[k2 kw'] kr']. injection H as <- _. simpl in *.
      destruct (stores_flag (touch_of (pcs (core w) c))) eqn:X; [|left; congruence]. right.
      assert (L : lockof (pcs s c) = LW).
      { rewrite <- (same_lock _ _ (m_p _ _ M c)). apply stores_exclusive. rewrite X. reflexivity. }
      assert (K : In fn (knows w c)).
      { apply (m_know _ _ M c); [congruence|]. rewrite F. unfold ids. rewrite map_app. apply in_or_app. left.
        apply in_or_app. right. left. reflexivity. }
      rewrite F in SF. apply (store_known _ fl (fn, flag s) _ _ _ K) in SF. rewrite <- F in SF. rewrite F' in SF.
      apply app_inj_tail in SF. destruct SF as [-> SF]. injection SF as -> _. exists (next w). exact F'.
    - destruct (pcs (core w) c) eqn:Q; try discriminate. injection H as <- _. auto.
    - injection H as <- _. auto.
  Qed.
  (** The flag is [x] at some moment of the schedule [l] from [s0]. *)
  Definition moment (s0 : st) (l : list (waction V E)) (x : bool) : Prop :=
    exists la lb s t, l = la ++ lb /\ run s0 (strong la) = Some (s, t) /\ flag s = x.
  Lemma moment_more s0 l l' x : moment s0 l x -> moment s0 (l ++ l') x.
  Proof. intros (la & lb & s & t & -> & R & F). exists la, (lb ++ l'), s, t. rewrite app_assoc. auto. Qed.
  Record fresh (s0 : st) (N d : nat) (l0 : list aid) (l : list (waction V E)) (w : wst) (s : st) : Prop := mk_fresh {
    fr_m : means w s;
    fr_run : exists t, run s0 (strong l) = Some (s, t);
    fr_old : forall i m, N <= i -> nth_error (flags w) i = Some m -> moment s0 l (snd m);
    fr_id : nth_error (ids (flags w)) N = Some d;
    fr_heard : forall c, In c (heard l0 (tells l)) -> In d (knows w c)
  }.
  Lemma fresh_start w s a : means w s -> lockof (pcs s a) <> LN ->
    exists N d, fresh s N d [a] [] w s.
  Proof.
    intros M L. destruct (m_f _ _ M) as (fl & fn & F). exists (length fl), fn. constructor; auto.
    - exists []. reflexivity.
    - intros i m I E1. rewrite F in E1.
      assert (X : i = length fl).
      { assert (Y : i < length (fl ++ [(fn, flag s)])) by (apply nth_error_Some; congruence).
        rewrite app_length in Y. simpl in Y. lia. }
      subst i. rewrite nth_error_app2, Nat.sub_diag in E1 by lia. injection E1 as <-.
      exists [], [], s, []. auto.
    - rewrite F. unfold ids. rewrite map_app, nth_error_app2 by (rewrite map_length; lia).
      rewrite map_length, Nat.sub_diag. reflexivity.
    - simpl. intros c [<-|[]]. apply (m_know _ _ M a L). rewrite F. unfold ids. rewrite map_app.
      apply in_or_app. left. apply in_or_app. right. left. reflexivity.
  Qed.
  Lemma fresh_step s0 N d l0 l w s x w' t : fresh s0 N d l0 l w s -> wstep w x = Some (w', t) ->
    exists s', fresh s0 N d l0 (l ++ [x]) w' s'.
  Proof.
    intros [M (u & R) O D H] S1. destruct (wstep_means _ _ _ _ _ M S1) as (s' & t' & R1 & _ & M').
    assert (R' : run s0 (strong (l ++ [x])) = Some (s', u ++ t')) by (rewrite strong_app; eapply run_then; eassumption).
    exists s'. constructor; eauto.
    - intros i m I E1. destruct (flags_grow _ _ _ _ _ _ M S1 M') as [F|(n & F)]; rewrite F in E1.
      + apply moment_more. eauto.
      + destruct (le_lt_dec (length (flags w)) i) as [G|G].
        * assert (X : i = length (flags w)).
          { assert (Y : i < length (flags w ++ [(n, flag s')])) by (apply nth_error_Some; congruence).
            rewrite app_length in Y. simpl in Y. lia. }
          subst i. rewrite nth_error_app2, Nat.sub_diag in E1 by lia. injection E1 as <-.
          exists (l ++ [x]), [], s', (u ++ t'). rewrite app_nil_r. auto.
        * rewrite nth_error_app1 in E1 by exact G. apply moment_more. eauto.
    - destruct (flags_grow _ _ _ _ _ _ M S1 M') as [F|(n & F)]; rewrite F; [exact D|].
      unfold ids. rewrite map_app, nth_error_app1; [exact D|]. apply nth_error_Some. unfold ids in D. congruence.
    - intros c I. rewrite tells_app, heard_app in I.
      assert (G : In c (heard l0 (tells l)) -> In d (knows w' c)) by (intros J; apply (knows_grow _ _ _ _ c S1), H, J).
      destruct x as [y i j|p q]; simpl in I; [auto|].
      destruct (existsb (Nat.eqb p) (heard l0 (tells l))) eqn:P; [|auto]. destruct I as [<-|I]; [|auto].
      apply (tell_known _ _ _ _ _ S1), H, memb_in, P.
  Qed.
  Lemma fresh_load s0 N d l0 l w s b i m : fresh s0 N d l0 l w s -> In d (knows w b) ->
    load (knows w b) (flags w) i = Some m -> moment s0 l (snd m).
  Proof.
    intros [M R O D H] K L. apply (O i).
    - apply (load_not_older _ _ _ _ N L); [congruence|]. intros d' X. congruence.
    - destruct (load_at (knows w b) (flags w) i) as [X|X]; congruence.
  Qed.
  Lemma fresh_run l' : forall s0 N d l0 l w s w' t, fresh s0 N d l0 l w s -> wrun w l' = Some (w', t) ->
    exists s', fresh s0 N d l0 (l ++ l') w' s'.
  Proof.
    induction l' as [|x l' IH]; intros s0 N d l0 l w s w' t F H; simpl in H.
    - injection H as <- _. exists s. rewrite app_nil_r. exact F.
    - destruct (wstep w x) as [[w1 t1]|] eqn:S1; [|discriminate].
      destruct (wrun w1 l') as [[w2 t2]|] eqn:R; [|discriminate]. injection H as <- _.
      destruct (fresh_step _ _ _ _ _ _ _ _ _ _ F S1) as (s1 & F1).
      destruct (IH _ _ _ _ _ _ _ _ _ F1 R) as (s2 & F2). exists s2. rewrite <- app_assoc in F2. exact F2.
  Qed.
  (** What the predicate has answered since it was called. *)
  Definition answer_ok (s0 : st) l (p : pc) : Prop :=
    match p with Ret _ (RBool x) => moment s0 l x | _ => True end.
  Lemma answer_step s0 N d l0 l w s x w' t b : fresh s0 N d l0 l w s -> In d (knows w b) ->
    answer_ok s0 l (pcs (core w) b) -> wstep w x = Some (w', t) ->
    answer_ok s0 (l ++ [x]) (pcs (core w') b) /\ (forall y, In (EvRet b (RBool y)) t -> moment s0 (l ++ [x]) y).
  Proof.
    intros F K A S1.
    assert (A' : answer_ok s0 (l ++ [x]) (pcs (core w) b)).
    { unfold answer_ok in *. destruct (pcs (core w) b); auto. destruct r; auto. apply moment_more, A. }
    destruct x as [[c o|c|c o] i j|c e].
    - simpl in S1. destruct (pcs (core w) c) eqn:Q; try discriminate. destruct (enter h o) eqn:En; [|discriminate].
      injection S1 as <- <-. simpl. split; [|intros y [X|[]]; discriminate].
      unfold upd. destruct (Nat.eqb b c); [|exact A'].
      destruct h, o; try discriminate; injection En as <-; exact I.
    - simpl in S1. unfold wcode in S1.
      destruct (if loads_flag _ then _ else _) as [f|] eqn:LF; [|discriminate].
      destruct (if loads_value _ then _ else _) as [v|]; [|discriminate].
      destruct (step_code _ c) as [[c' evs]|] eqn:SC; [|discriminate].
      destruct (if stores_flag _ then _ else _) as [gl|] eqn:SF; [|discriminate].
      destruct (if stores_value _ then _ else _) as [vl|]; [|discriminate].
      destruct (transfer _ _ _ _ _) as [[k2 kw'] kr']. injection S1 as <- <-. simpl.
      destruct (Nat.eq_dec c b) as [->|Nb].
      + unfold step_code in SC. cbn [pcs set_flag set_value] in SC.
        destruct (pcs (core w) b) eqn:Q; cbn [touch_of loads_flag] in LF; try discriminate;
        cbn [value flag bset lw lu lr set_flag set_value set_lock set_pc] in SC;
        repeat match type of SC with
        | (match ?x with _ => _ end) = Some _ => destruct x; try discriminate
        end; injection SC as <- <-; simpl; unfold upd; rewrite ?Nat.eqb_refl;
        (split; [simpl; auto|intros y Y; simpl in Y; try tauto; try (destruct Y as [Y|Y]; [discriminate|tauto])]).
        all: try (destruct Y as [Y|[]]; injection Y as ->; exact A').
        all: try exact I.
        all: try (destruct m; exact I).
        apply moment_more. eapply fresh_load; eassumption.
      + split.
        * pose proof (step_other _ (AStep c) _ _ b SC) as X. simpl in X. rewrite X by congruence. exact A'.
        * intros y Y. pose proof (step_events _ (AStep c) _ _ SC _ Y) as X. simpl in X. congruence.
    - simpl in S1. destruct (pcs (core w) c) eqn:Q; try discriminate. injection S1 as <- <-. simpl.
      split; [|intros y [X|[]]; discriminate]. unfold upd. destruct (Nat.eqb b c); [|exact A'].
      destruct o; exact I.
    - simpl in S1. injection S1 as <- <-. split; [exact A'|intros y []].
  Qed.
  Lemma answer_run l' : forall s0 N d l0 l w s w' t b, fresh s0 N d l0 l w s -> In d (knows w b) ->
    answer_ok s0 l (pcs (core w) b) -> wrun w l' = Some (w', t) ->
    forall y, In (EvRet b (RBool y)) t -> moment s0 (l ++ l') y.
  Proof.
    induction l' as [|x l' IH]; intros s0 N d l0 l w s w' t b F K A H y Y; simpl in H.
    - injection H as _ <-. destruct Y.
    - destruct (wstep w x) as [[w1 t1]|] eqn:S1; [|discriminate].
      destruct (wrun w1 l') as [[w2 t2]|] eqn:R; [|discriminate]. injection H as _ <-.
      destruct (fresh_step _ _ _ _ _ _ _ _ _ _ F S1) as (s1 & F1).
      destruct (answer_step _ _ _ _ _ _ _ _ _ _ _ F K A S1) as [A1 B1].
      replace (l ++ x :: l') with ((l ++ [x]) ++ l') by (rewrite <- app_assoc; reflexivity).
      apply in_app_or in Y. destruct Y as [Y|Y]; [apply moment_more, B1, Y|].
      eapply IH; try eassumption. apply (knows_grow _ _ _ _ b S1), K.
  Qed.

  Theorem predicate_not_older (ov : option V) (l0 : list (waction V E)) w0 t0 a l1 w1 t1 b i j l2 w2 t2 x :
    wrun (winit ov) l0 = Some (w0, t0) -> own_of (core w0) a <> Free ->
    wrun w0 l1 = Some (w1, t1) -> In b (heard [a] (tells l1)) ->
    wrun w1 (WDo (ACall b OIsSet) i j :: l2) = Some (w2, t2) -> In (EvRet b (RBool x)) t2 ->
    exists la lb s t, l1 ++ WDo (ACall b OIsSet) i j :: l2 = la ++ lb /\
      run (init ov) (strong (l0 ++ la)) = Some (s, t) /\ flag s = x.
  Proof.
    intros R0 O R1 Hb R2 X. destruct (wrun_means _ _ _ _ _ (means_init ov) R0) as (s0 & u0 & Q0 & _ & M0).
    rewrite (same_core _ _ M0 a) in O.
    assert (L : lockof (pcs s0 a) <> LN) by (intros L; rewrite L in O; apply O; reflexivity).
    destruct (fresh_start _ _ _ M0 L) as (N & d & F0).
    destruct (fresh_run _ _ _ _ _ _ _ _ _ _ F0 R1) as (s1 & F1). simpl in F1.
    simpl in R2. destruct (pcs (core w1) b) eqn:Q; try discriminate. destruct (enter h OIsSet) as [p|] eqn:En; [|discriminate].
    match type of R2 with (match wrun ?v _ with _ => _ end) = _ => set (w1' := v) in * end.
    destruct (wrun w1' l2) as [[w3 t3]|] eqn:R3; [|discriminate]. injection R2 as -> <-.
    assert (S1 : wstep w1 (WDo (ACall b OIsSet) i j) = Some (w1', [EvCall b OIsSet])) by (simpl; rewrite Q, En; reflexivity).
    destruct (fresh_step _ _ _ _ _ _ _ _ _ _ F1 S1) as (s1' & F1').
    destruct X as [X|X]; [discriminate|].
    assert (MO : moment s0 ((l1 ++ [WDo (ACall b OIsSet) i j]) ++ l2) x).
    { eapply answer_run; try eassumption.
      - apply (fr_heard _ _ _ _ _ _ _ F1). exact Hb.
      - unfold w1'. simpl. unfold upd. rewrite Nat.eqb_refl. destruct h; try discriminate. injection En as <-. exact I. }
    rewrite <- app_assoc in MO. destruct MO as (la & lb & s & t & EQ & RR & FF).
    exists la, lb, s, (u0 ++ t). split; [exact EQ|]. split; [|exact FF].
    rewrite strong_app. eapply run_then; eassumption.
  Qed.
  (** ** Every run of the other model is one on weak memory *)
  Definition exact (w : wst) (s : st) : Prop := means w s /\ forall a, pcs (core w) a = pcs s a.
  Lemma exact_code w s a s' t : exact w s -> step_code s a = Some (s', t) ->
    exists i j w', wcode w a i j = Some (w', t) /\ exact w' s'.
  Proof.
    intros [M P] H. destruct (m_f _ _ M) as (fl & fn & F). destruct (m_v _ _ M) as (vl & vn & Vv).
    set (tt := touch_of (pcs (core w) a)).
    set (i := if loads_flag tt then length fl else length vl).
    set (j := if stores_flag tt then length (flags w) else length (values w)).
    set (f := if loads_flag tt then flag s else flag (core w)).
    set (v := if loads_value tt then value s else value (core w)).
    assert (LF : exists n, (if loads_flag tt then load (knows w a) (flags w) i else Some (0, flag (core w))) = Some (n, f)).
    { unfold i, f. destruct (loads_flag tt); [|eauto]. rewrite F, load_last. eauto. }
    assert (LV : exists n, (if loads_value tt then load (knows w a) (values w) i else Some (0, value (core w))) = Some (n, v)).
    { unfold i, v. destruct (loads_value tt) eqn:X; [|eauto].
      replace (loads_flag tt) with false by (destruct tt; try discriminate; reflexivity). rewrite Vv, load_last. eauto. }
    destruct LF as (nf & LF). destruct LV as (nv & LV).
    destruct (code_same s (set_flag (set_value (core w) v) f) a (flag s) (value s) s' t) as (c & SC & _);
      try (symmetry; apply M); try (symmetry; apply P); auto.
    - intros b. cbn [pcs set_flag set_value]. rewrite P. constructor.
    - intros L _. unfold f, tt. cbn [flag set_flag]. rewrite P, L. reflexivity.
    - intros L. unfold v, tt. cbn [value set_flag set_value]. rewrite P, L. reflexivity.
    - assert (SF : exists x, (if stores_flag tt then store (knows w a) (flags w) j (next w, flag c) else Some (flags w)) = Some x).
      { unfold j. destruct (stores_flag tt); [rewrite store_last|]; eauto. }
      assert (SV : exists x, (if stores_value tt then store (knows w a) (values w) j (next w, value c) else Some (values w)) = Some x).
      { unfold j. destruct (stores_value tt) eqn:X; [|eauto].
        replace (stores_flag tt) with false by (destruct tt; try discriminate; reflexivity). rewrite store_last. eauto. }
      destruct SF as (gl & SF). destruct SV as (ul & SV).
      destruct (transfer (own_of (core w) a) (own_of c a)
        (match tt with TNone => knows w a | TLoadFlag => nf :: knows w a | _ => next w :: knows w a end) (kw w) (kr w))
        as [[k2 kw'] kr'] eqn:T.
      exists i, j. eexists. match goal with |- ?G /\ _ => assert (WC : G) end.
      { unfold wcode. fold tt. rewrite LF, LV. cbn [snd fst]. rewrite SC. rewrite SF, SV.
        cbn [fst]. rewrite T. reflexivity. }
      split; [exact WC|]. destruct (wcode_means _ _ _ _ _ _ _ M WC) as (s2 & t2 & SC2 & _ & M2).
      rewrite H in SC2. injection SC2 as <- <-. split; [exact M2|]. intros b. simpl.
      destruct (code_same (core w) s a f v c t) as (s3 & SC3 & _ & _ & _ & _ & _ & _ & _ & PP); try (apply M); auto.
      + intros L _. unfold f. fold tt in L. rewrite L. reflexivity.
      + intros L. unfold v. fold tt in L. rewrite L. reflexivity.
      + rewrite H in SC3. injection SC3 as E3. destruct (loads_flag tt) eqn:X;
          [rewrite E3; apply PP; [unfold f; rewrite ?X; reflexivity|exact P]|].
        clear PP. destruct (Nat.eq_dec b a) as [->|N].
        * pose proof (m_p _ _ M2 a) as Y. simpl in Y. inversion Y as [p Z1 Z2|h b1 b2 Z1 Z2]; [congruence|]. exfalso.
          unfold step_code in H. fold tt in X.
          unfold tt in X. rewrite P in X. destruct (pcs s a) eqn:Q; try discriminate X; simpl in H;
          repeat match type of H with
          | (match ?x with _ => _ end) = Some _ => destruct x; try discriminate
          end; try discriminate; injection H as <- _; simpl in Z2; unfold upd in Z2; rewrite Nat.eqb_refl in Z2; try discriminate.
          destruct m; discriminate.
        * pose proof (step_other _ (AStep a) _ _ b SC) as Y1. pose proof (step_other _ (AStep a) _ _ b H) as Y2.
          simpl in Y1, Y2. rewrite Y1, Y2 by exact N. apply P.
  Qed.
  Lemma exact_step w s x s' t : exact w s -> step s x = Some (s', t) ->
    exists y w', strong [y] = [x] /\ wstep w y = Some (w', t) /\ exact w' s'.
  Proof.
    intros [M P] H. destruct x as [a o|a|a b].
    - exists (WDo (ACall a o) 0 0). simpl in H. destruct (pcs s a) eqn:Q; try discriminate.
      destruct (enter h o) as [p|] eqn:En; [|discriminate]. injection H as <- <-.
      eexists. split; [reflexivity|]. match goal with |- ?G /\ _ => assert (WC : G) end.
      { simpl. rewrite P, Q, En. reflexivity. }
      split; [exact WC|]. destruct (wstep_means _ _ _ _ _ M WC) as (s2 & t2 & R & _ & M2).
      simpl in R. rewrite Q, En in R. injection R as <- _. split; [exact M2|].
      intros b. simpl. unfold upd. destruct (Nat.eqb b a); auto.
    - destruct (exact_code w s a s' t (conj M P) H) as (i & j & w' & WC & X).
      exists (WDo (AStep a) i j), w'. split; [reflexivity|]. split; [exact WC|exact X].
    - exists (WDo (ABuilt a b) 0 0). simpl in H. destruct (pcs s a) eqn:Q; try discriminate.
      injection H as <- <-.
      eexists. split; [reflexivity|]. match goal with |- ?G /\ _ => assert (WC : G) end.
      { simpl. rewrite P, Q. reflexivity. }
      split; [exact WC|]. destruct (wstep_means _ _ _ _ _ M WC) as (s2 & t2 & R & _ & M2).
      simpl in R. rewrite Q in R. injection R as <- _. split; [exact M2|].
      intros d. simpl. unfold upd. destruct (Nat.eqb d a); auto.
  Qed.
  Theorem strong_is_weak l : forall w s s' t, exact w s -> run s l = Some (s', t) ->
    exists l' w', strong l' = l /\ wrun w l' = Some (w', t).
  Proof.
    induction l as [|x l IH]; intros w s s' t X H; simpl in H.
    - injection H as <- <-. exists [], w. auto.
    - destruct (step s x) as [[s1 t1]|] eqn:S1; [|discriminate].
      destruct (run s1 l) as [[s2 t2]|] eqn:R; [|discriminate]. injection H as <- <-.
      destruct (exact_step _ _ _ _ _ X S1) as (y & w1 & Y & W & X1).
      destruct (IH _ _ _ _ X1 R) as (l' & w2 & L & W2). exists (y :: l'), w2.
      change (y :: l') with ([y] ++ l'). rewrite strong_app, Y, L. split; [reflexivity|].
      simpl. rewrite W, W2. reflexivity.
  Qed.
End Weak.
