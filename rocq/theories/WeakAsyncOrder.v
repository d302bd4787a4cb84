(** Proofs about the order of the answers of the predicate of the async container. *)
From Coq Require Import List Bool Arith Lia.
From Verif Require Import ProxyTypes AsyncProxyModel AsyncProxyInv AsyncProxySim AsyncProxyProofs WeakMem WeakSpec WeakMemFacts WeakOrder WeakAsyncModel WeakAsyncProofs.
Import ListNotations.

Section Order.
  Context {V E : Type}.
  Notation st := (st V E).
  Notation wst := (wst V E).
  (** The flag before, between and after the actions. *)
  Fixpoint flags_along (s : st) (l : list (action V E)) : list bool :=
    flag s :: match l with
              | [] => []
              | x :: l' => match step s x with Some (s', _) => flags_along s' l' | None => [] end
              end.
  Lemma along_snoc l : forall s s1 t1 x s2 t2, run s l = Some (s1, t1) -> step s1 x = Some (s2, t2) ->
    flags_along s (l ++ [x]) = flags_along s l ++ [flag s2].
  Proof.
    induction l as [|y l IH]; intros s s1 t1 x s2 t2 R S1; simpl in R.
    - injection R as -> <-. simpl. rewrite S1. reflexivity.
    - destruct (step s y) as [[s' u]|] eqn:S2; [|discriminate].
      destruct (run s' l) as [[s'' u']|] eqn:R'; [|discriminate]. injection R as -> <-.
      simpl. rewrite S2, (IH _ _ _ _ _ _ R' S1). reflexivity.
  Qed.
  Record keeps (s0 : st) (l : list (waction V E)) (w : wst) (s : st) : Prop := mk_keeps {
    k_m : means w s;
    k_run : exists t, run s0 (strong l) = Some (s, t);
    k_on : forall xs, onward xs (map snd (flags w)) -> onward xs (flags_along s0 (strong l))
  }.
  Lemma keeps_step s0 l w s x w' t : keeps s0 l w s -> wstep w x = Some (w', t) ->
    exists s', keeps s0 (l ++ [x]) w' s'.
  Proof.
    intros [M (u & R) O] S1. destruct (wstep_means _ _ _ _ _ M S1) as (s' & t' & R1 & _ & M').
    exists s'. assert (R' : run s0 (strong (l ++ [x])) = Some (s', u ++ t')) by (rewrite strong_app; eapply run_then; eassumption).
    constructor; [exact M'|eauto|]. rewrite strong_app. destruct x as [y i j|c d].
    - simpl in R1. destruct (step s y) as [[s1 t1]|] eqn:S2; [|discriminate]. injection R1 as -> <-. simpl.
      rewrite (along_snoc _ _ _ _ _ _ _ R S2). intros xs H.
      destruct (flags_grow _ _ _ _ _ _ M S1 M') as [F|(n & F)]; rewrite F in H.
      + apply onward_longer, O, H.
      + rewrite map_app in H. simpl in H. destruct (onward_split _ _ _ H) as (ys & k & -> & Y).
        apply onward_repeat, O, Y.
    - simpl. rewrite app_nil_r. simpl in S1. injection S1 as <- _. exact O.
  Qed.
  Lemma keeps_run l' : forall s0 l w s w' t, keeps s0 l w s -> wrun w l' = Some (w', t) ->
    exists s', keeps s0 (l ++ l') w' s'.
  Proof.
    induction l' as [|x l' IH]; intros s0 l w s w' t K H; simpl in H.
    - injection H as <- _. exists s. rewrite app_nil_r. exact K.
    - destruct (wstep w x) as [[w1 t1]|] eqn:S1; [|discriminate].
      destruct (wrun w1 l') as [[w2 t2]|] eqn:R; [|discriminate]. injection H as <- _.
      destruct (keeps_step _ _ _ _ _ _ _ K S1) as (s1 & K1). destruct (IH _ _ _ _ _ _ K1 R) as (s2 & K2).
      exists s2. rewrite <- app_assoc in K2. exact K2.
  Qed.

  (** An answer that was found but not yet handed out. *)
  Definition pend (p : pc V E) : list bool := match p with Ret _ (RBool x) => [x] | _ => [] end.
  (** [xs] was seen by someone, up to a write that [a] knows. *)
  Definition trail (a : aid) (xs : list bool) (w : wst) : Prop :=
    exists l1 m l2, flags w = l1 ++ m :: l2 /\ In (fst m) (knows w a) /\ onward xs (map snd (l1 ++ [m])).
  Lemma trail_on a xs w : trail a xs w -> onward xs (map snd (flags w)).
  Proof.
    intros (l1 & m & l2 & -> & _ & O). rewrite map_app in *. simpl in *. rewrite <- (app_nil_r xs).
    apply onward_app; [exact O|constructor].
  Qed.
  Lemma trail_same a xs w s x w' t s' : means w s -> wstep w x = Some (w', t) -> means w' s' -> trail a xs w -> trail a xs w'.
  Proof.
    intros M S1 M' (l1 & m & l2 & F & K & O).
    destruct (flags_grow _ _ _ _ _ _ M S1 M') as [G|(n & G)]; rewrite F in G.
    - exists l1, m, l2. split; [exact G|]. split; [apply (knows_grow _ _ _ _ a S1), K|exact O].
    - exists l1, m, (l2 ++ [(n, flag s')]). split; [rewrite G, <- app_assoc; reflexivity|].
      split; [apply (knows_grow _ _ _ _ a S1), K|exact O].
  Qed.
  (** A load of the flag gets the known write or a later one. *)
  Lemma trail_load a xs w i n x k : trail a xs w -> load (knows w a) (flags w) i = Some (n, x) -> In n k ->
    exists l1 m l2, flags w = l1 ++ m :: l2 /\ In (fst m) k /\ onward (xs ++ [x]) (map snd (l1 ++ [m])).
  Proof.
    intros (l1 & m & l2 & F & K & O) L Kn.
    assert (A : nth_error (flags w) i = Some (n, x)) by (destruct (load_at (knows w a) (flags w) i) as [X|X]; congruence).
    assert (G : length l1 <= i).
    { apply (load_not_older _ _ _ _ (length l1) L).
      - rewrite F. unfold ids. rewrite map_app, nth_error_app2 by (rewrite map_length; lia).
        rewrite map_length, Nat.sub_diag. simpl. discriminate.
      - intros d X. rewrite F in X. unfold ids in X. rewrite map_app, nth_error_app2 in X by (rewrite map_length; lia).
        rewrite map_length, Nat.sub_diag in X. simpl in X. injection X as <-. exact K. }
    destruct (nth_error_split _ _ A) as (q1 & q2 & Q & LQ). exists q1, (n, x), q2. split; [exact Q|]. split; [exact Kn|].
    rewrite F in Q. rewrite map_app. simpl.
    destruct (le_lt_dec i (length l1)) as [G'|G'].
    - assert (length q1 = length l1) as LL by lia.
      assert (Z : l1 = q1 /\ m :: l2 = (n, x) :: q2).
      { clear - Q LL. revert q1 LL Q. induction l1 as [|y l1 IH]; intros [|z q1] LL Q; simpl in *; try discriminate; [auto|].
        injection Q as <- Q. destruct (IH q1) as [-> ?]; auto. }
      destruct Z as [<- Z]. injection Z as -> _. rewrite map_app in O. simpl in O.
      apply (onward_app _ _ _ O [x] []). constructor. constructor.
    - assert (Z : exists q, q1 = l1 ++ m :: q).
      { clear - Q LQ G'. assert (Y : length l1 < length q1) by lia. clear LQ G'. revert q1 Y Q.
        induction l1 as [|y l1 IH]; intros [|z q1] Y Q; simpl in *; try lia.
        - injection Q as <- _. eauto.
        - injection Q as <- Q. destruct (IH q1) as (q & ->); [lia|exact Q|]. eauto. }
      destruct Z as (q & ->). rewrite map_app in *. simpl in *. rewrite <- app_assoc. simpl.
      apply (onward_app _ _ _ O [x]). constructor. apply onward_one. apply in_or_app. right. left. reflexivity.
  Qed.
  Lemma step_pend (s : st) a c evs : step_code s a = Some (c, evs) -> pcs s a <> L_Load ->
    answers a evs ++ pend (pcs c a) = pend (pcs s a).
  Proof.
    unfold step_code. destruct (pcs s a) eqn:Q; try discriminate; intros SC N; try (exfalso; apply N; reflexivity);
    repeat match type of SC with
    | (match ?x with _ => _ end) = Some _ => destruct x; try discriminate
    end; injection SC as <- <-; simpl; unfold upd; rewrite ?Nat.eqb_refl; simpl; try reflexivity.
    - destruct r; reflexivity.
    - destruct m; reflexivity.
  Qed.
  Lemma trail_step a xs w s x w' t : means w s -> trail a (xs ++ pend (pcs (core w) a)) w -> wstep w x = Some (w', t) ->
    trail a (xs ++ answers a t ++ pend (pcs (core w') a)) w'.
  Proof.
    intros M T S1. destruct (wstep_means _ _ _ _ _ M S1) as (s' & t' & _ & _ & M').
    assert (SAME : answers a t ++ pend (pcs (core w') a) = pend (pcs (core w) a) ->
                   trail a (xs ++ answers a t ++ pend (pcs (core w') a)) w').
    { intros ->. exact (trail_same a _ w s x w' t s' M S1 M' T). }
    destruct x as [[c o|c|c o|c] i j|c e].
    - apply SAME. simpl in S1. destruct (pcs (core w) c) eqn:Q; try discriminate. destruct (enter h o) eqn:En; [|discriminate].
      injection S1 as <- <-. simpl. unfold upd. destruct (Nat.eqb a c) eqn:X; [|reflexivity].
      apply Nat.eqb_eq in X. subst c. rewrite Q.
      destruct h, o; try discriminate; injection En as <-; reflexivity.
    - simpl in S1. unfold wcode in S1.
      destruct (if loads_flag _ then _ else _) as [f|] eqn:LF; [|discriminate].
      destruct (if loads_value _ then _ else _) as [v|]; [|discriminate].
      destruct (step_code _ c) as [[c' evs]|] eqn:SC; [|discriminate].
      destruct (if stores_flag _ then _ else _) as [gl|] eqn:SF; [|discriminate].
      destruct (if stores_value _ then _ else _) as [vl|]; [|discriminate].
      match type of S1 with context [transfer ?o ?o' ?k ?x ?y] =>
        pose proof (transfer_know o o' k x y) as TK; destruct (transfer o o' k x y) as [[k2 kw'] kr'] end.
      injection S1 as W <-. destruct (Nat.eq_dec c a) as [->|Nb].
      + assert (D : {pcs (core w) a = L_Load} + {pcs (core w) a <> L_Load})
          by (destruct (pcs (core w) a); (left; reflexivity) || (right; discriminate)).
        destruct D as [Q|Q].
        * rewrite Q in *. cbn [touch_of loads_flag stores_flag pend] in *. rewrite app_nil_r in T.
          unfold step_code in SC. cbn [pcs set_flag set_value] in SC. rewrite Q in SC. injection SC as <- <-.
          injection SF as <-. subst w'. destruct f as [n b]. simpl. unfold upd. rewrite Nat.eqb_refl. simpl.
          destruct (trail_load a xs w i n b k2 T LF) as (l1 & m & l2 & X); [apply TK; left; reflexivity|].
          exists l1, m, l2. simpl. rewrite updk_same. exact X.
        * apply SAME. subst w'. exact (step_pend _ _ _ _ SC Q).
      + apply SAME. subst w'. simpl. pose proof (step_other _ (AStep c) _ _ a SC) as X. simpl in X. rewrite X by congruence.
        replace (answers a evs) with (@nil bool); [reflexivity|]. pose proof (step_events _ (AStep c) _ _ SC) as Y. simpl in Y.
        clear - Y Nb. induction evs as [|e evs IH]; [reflexivity|]. simpl. rewrite <- IH by (intros e' J; apply Y; right; exact J).
        pose proof (Y e (or_introl eq_refl)) as Z. destruct e; try reflexivity. destruct r; try reflexivity. simpl in Z.
        subst. rewrite (proj2 (Nat.eqb_neq _ _)) by congruence. reflexivity.
    - apply SAME. simpl in S1. destruct (pcs (core w) c) eqn:Q; try discriminate. injection S1 as <- <-. simpl.
      unfold upd. destruct (Nat.eqb a c) eqn:X; [|reflexivity]. apply Nat.eqb_eq in X. subst c. rewrite Q. destruct o; reflexivity.
    - apply SAME. simpl in S1. destruct (cancel (pcs (core w) c)) as [p|] eqn:C; [|discriminate]. injection S1 as <- <-. simpl.
      unfold upd. destruct (Nat.eqb a c) eqn:X; [|reflexivity]. apply Nat.eqb_eq in X. subst c.
      destruct (pcs (core w) a); try discriminate; injection C as <-; reflexivity.
    - apply SAME. simpl in S1. injection S1 as <- <-. reflexivity.
  Qed.
  Lemma answers_app a t1 t2 : answers a (t1 ++ t2) = answers a t1 ++ @answers V E a t2.
  Proof. apply flat_map_app. Qed.
  Lemma trail_run l : forall a xs w s w' t, means w s -> trail a (xs ++ pend (pcs (core w) a)) w -> wrun w l = Some (w', t) ->
    trail a (xs ++ answers a t ++ pend (pcs (core w') a)) w'.
  Proof.
    induction l as [|x l IH]; intros a xs w s w' t M T H; simpl in H.
    - injection H as <- <-. exact T.
    - destruct (wstep w x) as [[w1 t1]|] eqn:S1; [|discriminate].
      destruct (wrun w1 l) as [[w2 t2]|] eqn:R; [|discriminate]. injection H as <- <-.
      destruct (wstep_means _ _ _ _ _ M S1) as (s1 & u1 & _ & _ & M1).
      pose proof (trail_step _ _ _ _ _ _ _ M T S1) as T1. rewrite app_assoc in T1.
      pose proof (IH _ _ _ _ _ _ M1 T1 R) as T2. rewrite answers_app, <- !app_assoc in *. exact T2.
  Qed.
  Lemma trail_init a ov : trail a ([] ++ pend (pcs (core (winit ov : wst)) a)) (winit ov).
  Proof. exists [], (0, is_some ov), []. simpl. split; [reflexivity|]. split; [auto|constructor]. Qed.
  Lemma keeps_init ov : keeps (init ov) [] (winit ov) (init ov).
  Proof.
    constructor; [apply means_init|exists []; reflexivity|]. simpl. intros xs H. exact H.
  Qed.
  Lemma onward_part xs ys h : onward (xs ++ ys) h -> onward xs h.
  Proof.
    remember (xs ++ ys) as zs eqn:Q. intros H. revert xs Q. induction H as [h|z zs h H IH|z zs h H IH]; intros xs Q.
    - destruct xs; [constructor|discriminate].
    - destruct xs as [|x xs]; [constructor|]. injection Q as <- Q. constructor. auto.
    - constructor. auto.
  Qed.
  Theorem answers_onward (ov : option V) l (w : wst) t a : wrun (winit ov) l = Some (w, t) ->
    onward (answers a t) (flags_along (init ov) (strong l)).
  Proof.
    intros H. destruct (keeps_run l _ _ _ _ _ _ (keeps_init ov) H) as (s & K). apply (k_on _ _ _ _ K).
    pose proof (trail_on _ _ _ (trail_run _ _ _ _ _ _ _ (means_init ov) (trail_init a ov) H)) as O.
    simpl in O. exact (onward_part _ _ _ O).
  Qed.
  Lemma heard_knows l : forall (w w' : wst) t d l0, (forall c, In c l0 -> In d (knows w c)) -> wrun w l = Some (w', t) ->
    forall c, In c (heard l0 (tells l)) -> In d (knows w' c).
  Proof.
    induction l as [|x l IH]; intros w w' t d l0 K H c I; simpl in H.
    - injection H as <- _. apply K, I.
    - destruct (wstep w x) as [[w1 t1]|] eqn:S1; [|discriminate].
      destruct (wrun w1 l) as [[w2 t2]|] eqn:R; [|discriminate]. injection H as <- _.
      assert (K1 : forall c, In c l0 -> In d (knows w1 c)) by (intros e J; apply (knows_grow _ _ _ _ e S1), K, J).
      destruct x as [y i j|p q]; simpl in I; [eauto|].
      destruct (existsb (Nat.eqb p) l0) eqn:P; [|eauto]. apply (IH w1 w2 t2 d (q :: l0)); auto.
      intros e [<-|J]; [|auto]. apply (tell_known _ _ _ _ _ S1), K, memb_in, P.
  Qed.
  Lemma flags_more l : forall (w : wst) s w' t, means w s -> wrun w l = Some (w', t) ->
    exists g, flags w' = flags w ++ g.
  Proof.
    induction l as [|x l IH]; intros w s w' t M H; simpl in H.
    - injection H as <- _. exists []. rewrite app_nil_r. reflexivity.
    - destruct (wstep w x) as [[w1 t1]|] eqn:S1; [|discriminate].
      destruct (wrun w1 l) as [[w2 t2]|] eqn:R; [|discriminate]. injection H as <- _.
      destruct (wstep_means _ _ _ _ _ M S1) as (s1 & u1 & _ & _ & M1). destruct (IH _ _ _ _ M1 R) as (g & G).
      rewrite G. destruct (flags_grow _ _ _ _ _ _ M S1 M1) as [F|(n & F)]; rewrite F; [eauto|].
      rewrite <- app_assoc. eauto.
  Qed.
  Theorem heard_onward (ov : option V) l1 (w1 : wst) t1 a x l2 w2 t2 b i j l3 w3 t3 y :
    wrun (winit ov) l1 = Some (w1, t1) -> In x (answers a t1) ->
    wrun w1 l2 = Some (w2, t2) -> In b (heard [a] (tells l2)) ->
    wrun w2 (WDo (ACall b OIsSet) i j :: l3) = Some (w3, t3) -> In y (answers b t3) ->
    onward [x; y] (flags_along (init ov) (strong (l1 ++ l2 ++ WDo (ACall b OIsSet) i j :: l3))).
  Proof.
    intros R1 X R2 Hb R3 Y.
    destruct (wrun_means _ _ _ _ _ (means_init ov) R1) as (s1 & u1 & _ & _ & M1).
    destruct (wrun_means _ _ _ _ _ M1 R2) as (s2 & u2 & _ & _ & M2).
    destruct (keeps_run l1 _ _ _ _ _ _ (keeps_init ov) R1) as (k1 & K1).
    destruct (keeps_run l2 _ _ _ _ _ _ K1 R2) as (k2 & K2). destruct (keeps_run _ _ _ _ _ _ _ K2 R3) as (k3 & K3).
    simpl in K3. rewrite <- app_assoc in K3. apply (k_on _ _ _ _ K3). clear K1 K2 K3.
    pose proof (trail_run _ _ _ _ _ _ _ (means_init ov) (trail_init a ov) R1) as (p & m & q & F & K & O).
    assert (T2 : trail b [x] w2).
    { destruct (flags_more _ _ _ _ _ M1 R2) as (g & G). rewrite F, <- app_assoc in G. exists p, m, (q ++ g).
      split; [exact G|]. split.
      - apply (heard_knows l2 w1 w2 t2 (fst m) [a]); auto. intros c [<-|[]]. exact K.
      - simpl in O. apply (onward_in x _ _ O). apply in_or_app. left. exact X. }
    assert (PN : pend (pcs (core w2) b) = []).
    { simpl in R3. destruct (pcs (core w2) b); try discriminate; reflexivity. }
    assert (T3 : trail b ([x] ++ pend (pcs (core w2) b)) w2) by (rewrite PN; exact T2).
    pose proof (trail_on _ _ _ (trail_run _ _ _ _ _ _ _ M2 T3 R3)) as O3.
    rewrite app_assoc in O3. apply onward_part in O3. simpl in O3.
    destruct (in_split _ _ Y) as (y1 & y2 & YY). rewrite YY in O3.
    clear - O3. remember (map snd (flags w3)) as h eqn:Q. clear Q.
    remember (x :: y1 ++ y :: y2) as zs eqn:Q. revert Q. induction O3 as [h|z zs h H IH|z zs h H IH]; intros Q.
    - discriminate.
    - injection Q as -> ->. constructor. apply (onward_in y _ _ H). apply in_or_app. right. left. reflexivity.
    - constructor. auto.
  Qed.
End Order.
