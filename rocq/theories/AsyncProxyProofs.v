(** Proofs about the async lazy container that talk about its memory or its lock:
    guards, the predicate, recovery after a failing or abandoned builder (C13). *)
From Coq Require Import List Bool Arith Lia.
From Verif Require Import ProxyTypes AsyncProxyModel AsyncProxyInv AtomicCell AsyncProxySim TraceSpec.
Import ListNotations.

Section Proofs.
  Context {V E : Type}.
  Notation st := (st V E).
  Notation pc := (pc V E).

  (** The call in progress and the guard kept, read off the program counter. *)
  Definition kept_pc (p : pc) (x : option (op V) * hold) : Prop :=
    match p with
    | Hold h => x = (None, h)
    | Ret h r =>
        exists o h0, x = (Some o, h0) /\
          match o with
          | ORead | OTryRead =>
              h0 = HNone /\ (match r with RGuard _ => h = HR | _ => h = HNone end)
          | OReadMut | OTryReadMut =>
              h0 = HNone /\ (match r with RGuard _ => h = HM | _ => h = HNone end)
          | OWrite => h0 = HNone /\ (r = RUnit /\ h = HW \/ r = RCancelled /\ h = HNone)
          | GGet => h = h0 /\ (h0 = HR \/ h0 = HM) /\ exists v, r = RVal (Some v)
          | _ => h = h0
          end
    | Drop h => x = (Some GDrop, HNone)
    | RI_Acq m | RI_Check m | RI_GetBld m | RI_Build m
    | RI_SetVal m _ | RI_SetFlag m | RI_Done m | RI_Fail m _ | RI_Unwind m | RI_Drop m
    | R_Map m | M_Map m => x = (Some (opm m), HNone)
    | W_Acq => x = (Some OWrite, HNone)
    | C_Acq | C_Flag | C_Take | C_Rel _ => x = (Some OClear, HNone)
    | L_Load => x = (Some OIsSet, HNone)
    | K_Acq | K_Val | K_Flag _ | K_Rel _ _ => x = (Some OClone, HNone)
    | D_Acq | D_Val | D_Rel _ => x = (Some ODebug, HNone)
    | G_Get h => x = (Some GGet, h)
    | G_Set v => x = (Some (GSet v), HM)
    | S_Flag v | S_Rep v => x = (Some (GStore v), HW)
    | X_Flag | X_Take => x = (Some GClear, HW)
    end.

  Lemma kept_app t1 t2 a : @kept V E (t1 ++ t2) a = fold_left (kept_next a) t2 (kept t1 a).
  Proof. unfold kept. now rewrite fold_left_app. Qed.

  Lemma kept_step s x s' t t' :
    inv s -> (forall a, kept_pc (pcs s a) (kept t a)) -> step s x = Some (s', t') ->
    forall a, kept_pc (pcs s' a) (kept (t ++ t') a).
  Proof.
    intros I K H a. rewrite kept_app.
    assert (Other : forall b p (e : list (event V E)), a <> b -> (forall e', In e' e -> who e' = b) ->
               kept_pc (upd (pcs s) b p a) (fold_left (kept_next a) e (kept t a))).
    { intros b p e Hn He. unfold upd. apply Nat.eqb_neq in Hn as Hn'. rewrite Hn'.
      replace (fold_left (kept_next a) e (kept t a)) with (kept t a); auto.
      symmetry. apply Nat.eqb_neq in Hn'. clear - Hn' He. revert He.
      generalize (kept t a). induction e as [|y e IH]; cbn; auto. intros x He.
      rewrite IH by (intros; apply He; auto).
      assert (Hy : who y = b) by auto. destruct y; cbn in *; subst; auto;
        destruct (Nat.eqb_spec b a); congruence. }
    destruct x as [b o|b|b out|b]; cbn in H.
    - destruct (pcs s b) eqn:Hp; try discriminate.
      destruct (enter h o) as [p|] eqn:He; try discriminate. injection H as <- <-. cbn [pcs set_pc].
      destruct (Nat.eq_dec a b) as [->|Hn].
      2:{ apply Other; auto. intros e' [<-|[]]; reflexivity. }
      unfold upd. rewrite Nat.eqb_refl. pose proof (K b) as Kb. rewrite Hp in Kb. cbn in Kb.
      cbn. rewrite Nat.eqb_refl, Kb.
      destruct h, o; cbn in He; inversion He; subst; cbn; auto.
    - unfold step_code in H. pose proof (K b) as Kb. pose proof (i_p _ I b) as Pb.
      assert (Hs : exists p tt, s' = s' /\ (forall c, pcs s' c = upd (pcs s) b p c) /\ t' = tt /\
                 (forall e', In e' tt -> who e' = b) /\
                 (a = b -> kept_pc p (fold_left (kept_next a) tt (kept t a)))).
      { destruct (pcs s b) eqn:Hp; try discriminate; cbn in Kb, Pb;
          repeat match type of H with
          | context [match ?d with _ => _ end] => destruct d eqn:?; try discriminate
          end; try (injection H as <- <-);
          (eexists _, _; split; [reflexivity|]; split; [intros c; reflexivity|]; split; [reflexivity|];
           split; [intros e' He'; cbn in He'; intuition (subst; auto)|]);
          intros ->; cbn; rewrite ?Nat.eqb_refl, ?Kb; auto;
          try (exfalso; intuition congruence);
          try (eexists _, _; split; [reflexivity|]; cbn; intuition eauto; fail);
          try (eexists _, _; split; [reflexivity|]; destruct m; cbn; auto; fail);
          try (eexists _, _; split; [reflexivity|]; destruct Pb as [[->| ->] _]; cbn; auto; fail).
        (* Ret *)
        destruct Kb as (o & h0 & -> & Ho). cbn.
        destruct o; subst; auto; destruct r; intuition (subst; auto); try discriminate. }
      destruct Hs as (p & tt & _ & Hp & -> & Hw & Ha). rewrite Hp.
      destruct (Nat.eq_dec a b) as [->|Hn]; [|apply Other; auto].
      unfold upd. rewrite Nat.eqb_refl. auto.
    - destruct (pcs s b) eqn:Hp; try discriminate. injection H as <- <-. cbn [pcs set_pc].
      destruct (Nat.eq_dec a b) as [->|Hn].
      2:{ apply Other; auto. intros e' [<-|[]]; reflexivity. }
      unfold upd. rewrite Nat.eqb_refl. pose proof (K b) as Kb. rewrite Hp in Kb. cbn in Kb.
      cbn. rewrite Kb. destruct out; cbn; auto.
    - destruct (cancel (pcs s b)) as [p|] eqn:Hc; try discriminate. injection H as <- <-. cbn [pcs set_pc].
      destruct (Nat.eq_dec a b) as [->|Hn].
      2:{ apply Other; auto. intros e' []. }
      unfold upd. rewrite Nat.eqb_refl. pose proof (K b) as Kb. cbn [fold_left].
      destruct (pcs s b) eqn:Hp; try discriminate; injection Hc as <-; cbn in Kb |- *; auto;
        rewrite Kb; eexists _, _; split; try reflexivity; cbn; auto; destruct m; cbn; auto.
  Qed.

  Lemma kept_run (l : list (action V E)) : forall s s' t t',
    inv s -> (forall a, kept_pc (pcs s a) (kept t a)) -> run s l = Some (s', t') ->
    forall a, kept_pc (pcs s' a) (kept (t ++ t') a).
  Proof.
    induction l as [|x l IH]; cbn; intros s s' t t' I K H a.
    - injection H as <- <-. rewrite app_nil_r. auto.
    - destruct (step s x) as [[s1 t1]|] eqn:Hs; try discriminate.
      destruct (run s1 l) as [[s2 t2]|] eqn:Hr; try discriminate.
      injection H as <- <-. rewrite app_assoc.
      eapply IH; [eapply inv_step; eauto| |eauto].
      intros b. eapply kept_step; eauto.
  Qed.

  Lemma kept_reach ov l s t : run (init ov) l = Some (s, t) ->
    inv s /\ forall a, kept_pc (pcs s a) (kept t a).
  Proof.
    intros H. split; [eapply inv_run; eauto; apply inv_init|].
    intros a. apply (kept_run l (init ov) s [] t); auto; [apply inv_init|reflexivity].
  Qed.

  (** ** Who moves *)
  Definition actor (x : action V E) : aid :=
    match x with ACall a _ | AStep a | ABuilt a _ | ACancel a => a end.

  Lemma step_events (s : st) x s' t : step s x = Some (s', t) -> forall e, In e t -> who e = actor x.
  Proof.
    intros H e He. destruct x as [a o|a|a b|a]; cbn in H.
    - destruct (pcs s a); try discriminate. destruct (enter h o); try discriminate.
      injection H as <- <-. destruct He as [<-|[]]; auto.
    - unfold step_code in H.
      destruct (pcs s a); try discriminate;
        repeat match type of H with
        | context [match ?d with _ => _ end] => destruct d eqn:?; try discriminate
        end; injection H as <- <-; cbn in He; intuition (subst; auto).
    - destruct (pcs s a); try discriminate. injection H as <- <-. destruct He as [<-|[]]; auto.
    - destruct (cancel (pcs s a)); try discriminate. injection H as <- <-. destruct He.
  Qed.

  Lemma step_other (s : st) x s' t b : step s x = Some (s', t) -> b <> actor x -> pcs s' b = pcs s b.
  Proof.
    intros H Hb. apply Nat.eqb_neq in Hb. destruct x as [a o|a|a out|a]; cbn in H, Hb.
    - destruct (pcs s a); try discriminate. destruct (enter h o); try discriminate.
      injection H as <- <-. cbn. unfold upd. now rewrite Hb.
    - unfold step_code in H.
      destruct (pcs s a); try discriminate;
        repeat match type of H with
        | context [match ?d with _ => _ end] => destruct d eqn:?; try discriminate
        end; injection H as <- <-; cbn; unfold upd; now rewrite Hb.
    - destruct (pcs s a); try discriminate. injection H as <- <-. cbn. unfold upd. now rewrite Hb.
    - destruct (cancel (pcs s a)); try discriminate. injection H as <- <-. cbn. unfold upd. now rewrite Hb.
  Qed.

  (** Memory is only written, and builders only start, under the exclusive lock. *)
  Lemma step_memory (s : st) x s' t : step s x = Some (s', t) ->
    lockof (pcs s (actor x)) = LW \/
    (value s' = value s /\ flag s' = flag s /\ forall b, ~ In (EvBuildStart b) t).
  Proof.
    intros H. destruct x as [a o|a|a out|a]; cbn in H |- *.
    - destruct (pcs s a); try discriminate. destruct (enter h o); try discriminate.
      injection H as <- <-. right. cbn. repeat split; auto. intros b [He|[]]; discriminate.
    - unfold step_code in H.
      destruct (pcs s a) eqn:Hp; try discriminate; cbn; auto; right;
        repeat match type of H with
        | context [match ?d with _ => _ end] => destruct d eqn:?; try discriminate
        end; injection H as <- <-; cbn; repeat split; auto; intros b0 He; intuition discriminate.
    - destruct (pcs s a); try discriminate. injection H as <- <-. cbn. auto.
    - destruct (cancel (pcs s a)); try discriminate. injection H as <- <-. right. cbn. auto.
  Qed.

  Lemma step_memory_locked (s : st) x s' t a :
    inv s -> step s x = Some (s', t) -> actor x <> a -> lockof (pcs s a) = LR \/ lockof (pcs s a) = LW ->
    value s' = value s /\ flag s' = flag s /\ forall b, ~ In (EvBuildStart b) t.
  Proof.
    intros I H Hn L. destruct (step_memory _ _ _ _ H) as [Hw|]; auto.
    exfalso. pose proof (alone _ _ a I Hw) as Al. rewrite Al in L by congruence.
    destruct L; discriminate.
  Qed.

  (** ** C03 *)
  Lemma keeps_lock ov (l : list (action V E)) s t a h :
    run (init ov) l = Some (s, t) -> keeps t a = h -> h <> HNone -> lockof (pcs s a) = lk_hold h.
  Proof.
    intros H K Hh. destruct (kept_reach _ _ _ _ H) as [I Kp]. specialize (Kp a).
    unfold keeps in K. subst h.
    destruct (pcs s a); cbn in *; try (rewrite Kp in *; cbn in *; congruence).
    destruct Kp as (o & h0 & Hk & Ho). rewrite Hk in *; cbn in *.
    destruct o; intuition (subst; auto; congruence).
  Qed.

  Theorem guards_exclude ov (l : list (action V E)) s t a b :
    run (init ov) l = Some (s, t) -> a <> b ->
    keeps t a = HM \/ keeps t a = HW -> keeps t b = HNone.
  Proof.
    intros H Hn Ka. destruct (kept_reach _ _ _ _ H) as [I _].
    assert (La : lockof (pcs s a) = LW).
    { destruct Ka as [Ka|Ka]; rewrite (keeps_lock _ _ _ _ _ _ H Ka); auto; discriminate. }
    destruct (keeps t b) eqn:Kb; auto;
      pose proof (keeps_lock _ _ _ _ _ _ H Kb ltac:(discriminate)) as Lb;
      rewrite (alone _ _ _ I La) in Lb by congruence; discriminate.
  Qed.

  Definition view_pc (p : pc) (x v : option V) : Prop :=
    match p with
    | Hold (HR | HM) | G_Get (HR | HM) => x = v
    | Ret (HR | HM) (RGuard w) => v = Some w
    | Ret (HR | HM) (RVal ov) => ov = v /\ x = v
    | Ret HR _ => False
    | Ret HM r => r = RUnit /\ x = v
    | Drop _ => True
    | G_Set w => x = Some w
    | _ => True
    end.

  Lemma view_app t1 t2 a : @view V E (t1 ++ t2) a = fold_left (view_next a) t2 (view t1 a).
  Proof. unfold view. now rewrite fold_left_app. Qed.

  Lemma view_other (t : list (event V E)) a : (forall e, In e t -> who e <> a) ->
    forall x, fold_left (view_next a) t x = x.
  Proof.
    induction t as [|e t IH]; cbn; auto. intros He x.
    rewrite IH by auto. specialize (He e (or_introl eq_refl)). apply Nat.eqb_neq in He.
    destruct e; cbn in *; auto; [destruct o|destruct r]; auto; now rewrite He.
  Qed.

  Lemma view_pc_free p x v v' : lockof p <> LR -> lockof p <> LW -> view_pc p x v -> view_pc p x v'.
  Proof.
    destruct p; cbn; auto; try congruence;
      destruct h; cbn; auto; congruence.
  Qed.

  Lemma view_step s x s' t t' :
    inv s -> (forall a, view_pc (pcs s a) (view t a) (value s)) -> step s x = Some (s', t') ->
    forall a, view_pc (pcs s' a) (view (t ++ t') a) (value s').
  Proof.
    intros I K H a. rewrite view_app. pose proof (K a) as Ka.
    destruct (Nat.eq_dec a (actor x)) as [->|Hn].
    2:{ rewrite (step_other _ _ _ _ _ H Hn).
        rewrite view_other by (intros e He; rewrite (step_events _ _ _ _ H e He); auto).
        destruct (lockof (pcs s a)) eqn:L.
        - eapply view_pc_free; eauto; congruence.
        - destruct (step_memory_locked _ _ _ _ a I H ltac:(auto)) as [-> _]; auto.
        - destruct (step_memory_locked _ _ _ _ a I H ltac:(auto)) as [-> _]; auto. }
    destruct x as [b o|b|b out|b]; cbn [actor] in *; cbn in H.
    - destruct (pcs s b) eqn:Hp; try discriminate.
      destruct (enter h o) as [p|] eqn:He; try discriminate. injection H as <- <-.
      cbn [pcs set_pc value]. unfold upd. rewrite Nat.eqb_refl. cbn in Ka.
      destruct h, o; cbn in He; inversion He; subst; cbn; rewrite ?Nat.eqb_refl; auto.
    - unfold step_code in H. pose proof (i_p _ I b) as Pb.
      destruct (pcs s b) eqn:Hp; try discriminate; cbn in Ka, Pb;
        repeat match type of H with
        | context [match ?d with _ => _ end] => destruct d eqn:?; try discriminate
        end; injection H as <- <-; cbn [pcs set_pc set_lock set_value set_flag value];
        unfold upd; rewrite Nat.eqb_refl; cbn; auto; try (intuition congruence).
      + (* Ret *)
        destruct h; cbn; auto; destruct r; cbn in *; rewrite ?Nat.eqb_refl; intuition (try congruence).
      + (* G_Get *)
        destruct h; auto; split; congruence.
    - destruct (pcs s b) eqn:Hp; try discriminate. injection H as <- <-.
      cbn [pcs set_pc value]. unfold upd. rewrite Nat.eqb_refl. destruct out; cbn; auto.
    - destruct (cancel (pcs s b)) as [p|] eqn:Hc; try discriminate. injection H as <- <-.
      cbn [pcs set_pc value]. unfold upd. rewrite Nat.eqb_refl.
      destruct (pcs s b); try discriminate; injection Hc as <-; cbn; auto.
  Qed.

  Lemma view_run (l : list (action V E)) : forall s s' t t',
    inv s -> (forall a, view_pc (pcs s a) (view t a) (value s)) -> run s l = Some (s', t') ->
    forall a, view_pc (pcs s' a) (view (t ++ t') a) (value s').
  Proof.
    induction l as [|x l IH]; cbn; intros s s' t t' I K H a.
    - injection H as <- <-. rewrite app_nil_r. auto.
    - destruct (step s x) as [[s1 t1]|] eqn:Hs; try discriminate.
      destruct (run s1 l) as [[s2 t2]|] eqn:Hr; try discriminate.
      injection H as <- <-. rewrite app_assoc.
      eapply IH; [eapply inv_step; eauto| |eauto].
      intros b. eapply view_step; eauto.
  Qed.

  (** A prefix of the events of a run belongs to a run. *)
  Lemma run_cut (l : list (action V E)) : forall s s' t1 e t2,
    run s l = Some (s', t1 ++ e :: t2) ->
    exists l1 x l2 s1 s2,
      l = l1 ++ x :: l2 /\ run s l1 = Some (s1, t1) /\ step s1 x = Some (s2, [e]) /\
      run s2 l2 = Some (s', t2).
  Proof.
    induction l as [|x l IH]; cbn; intros s s' t1 e t2 H.
    - injection H as _ H. destruct t1; discriminate.
    - destruct (step s x) as [[s1 u1]|] eqn:Hs; try discriminate.
      destruct (run s1 l) as [[s2 u2]|] eqn:Hr; try discriminate.
      injection H as -> H.
      assert (Hu : u1 = [] \/ exists e', u1 = [e']).
      { clear - Hs. destruct x as [a o|a|a out|a]; cbn in Hs.
        - destruct (pcs s a); try discriminate. destruct (enter h o); try discriminate.
          injection Hs as <- <-. eauto.
        - unfold step_code in Hs.
          destruct (pcs s a); try discriminate;
            repeat match type of Hs with
            | context [match ?d with _ => _ end] => destruct d eqn:?; try discriminate
            end; injection Hs as <- <-; eauto.
        - destruct (pcs s a); try discriminate. injection Hs as <- <-. eauto.
        - destruct (cancel (pcs s a)); try discriminate. injection Hs as <- <-. eauto. }
      destruct Hu as [->|[e' ->]]; cbn in H.
      + subst u2. destruct (IH _ _ _ _ _ Hr) as (l1 & y & l2 & s3 & s4 & -> & R1 & S1 & R2).
        exists (x :: l1), y, l2, s3, s4. repeat split; auto. cbn. rewrite Hs, R1. reflexivity.
      + destruct t1 as [|e'' t1]; cbn in H; injection H as -> H.
        * subst u2. exists [], x, l, s, s1. repeat split; auto.
        * subst u2. destruct (IH _ _ _ _ _ Hr) as (l1 & y & l2 & s3 & s4 & -> & R1 & S1 & R2).
          exists (x :: l1), y, l2, s3, s4. repeat split; auto. cbn. rewrite Hs, R1. reflexivity.
  Qed.

  (** What is read through a guard is what the holder expects. *)
  Theorem guard_reads_view ov (l : list (action V E)) s t1 a r t2 :
    run (init ov) l = Some (s, t1 ++ EvRet a r :: t2) ->
    fst (kept t1 a) = Some GGet ->
    exists v, view t1 a = Some v /\ r = RVal (Some v).
  Proof.
    intros H P. apply run_cut in H as (l1 & x & l2 & s1 & s2 & _ & R1 & S1 & _).
    destruct (kept_reach _ _ _ _ R1) as [I K]. specialize (K a).
    assert (W := view_run l1 (init ov) s1 [] t1 (inv_init ov) ltac:(intros; exact Logic.I) R1 a).
    pose proof (i_p _ I a) as Pa.
    assert (Ha : exists h, pcs s1 a = Ret h r).
    { clear - S1. destruct x as [b o|b|b out|b]; cbn in S1.
      - destruct (pcs s1 b); try discriminate. destruct (enter h o); try discriminate.
      - unfold step_code in S1.
        destruct (pcs s1 b) eqn:Hp; try discriminate;
          repeat match type of S1 with
          | context [match ?d with _ => _ end] => destruct d eqn:?; try discriminate
          end; inversion S1; subst; eauto.
      - destruct (pcs s1 b); try discriminate.
      - destruct (cancel (pcs s1 b)); try discriminate. }
    destruct Ha as [h Ha]. rewrite Ha in *. cbn in K, W, Pa.
    destruct K as (o & h0 & Hk & Ho). rewrite Hk in P. injection P as ->.
    destruct Ho as (-> & Hh & v & ->). exists v. split; auto.
    unfold view. destruct Hh as [->| ->]; destruct W as [W1 W2]; congruence.
  Qed.

  (** While a guard is kept and not used, nobody changes what is behind it, and no
      builder starts. *)
  Theorem guard_pins (l2 : list (action V E)) : forall ov l1 s1 t1 s2 t2 a,
    run (init ov) l1 = Some (s1, t1) -> run s1 l2 = Some (s2, t2) ->
    keeps t1 a <> HNone -> fst (kept t1 a) = None -> silent a t2 ->
    value s2 = value s1 /\ flag s2 = flag s1 /\ forall b, ~ In (EvBuildStart b) t2.
  Proof.
    induction l2 as [|x l2 IH]; cbn; intros ov l1 s1 t1 s2 t2 a R1 R2 K P Si.
    - injection R2 as <- <-. repeat split; auto.
    - destruct (step s1 x) as [[s3 u1]|] eqn:Hs; try discriminate.
      destruct (run s3 l2) as [[s4 u2]|] eqn:Hr; try discriminate. injection R2 as <- <-.
      assert (R1' : run (init ov) (l1 ++ [x]) = Some (s3, t1 ++ u1)).
      { apply run_app. exists s1, t1, u1. repeat split; auto. cbn. rewrite Hs, app_nil_r. auto. }
      assert (Si1 : silent a u1) by (intros e He; apply Si, in_or_app; auto).
      assert (Si2 : silent a u2) by (intros e He; apply Si, in_or_app; auto).
      assert (Hk : kept (t1 ++ u1) a = kept t1 a).
      { rewrite kept_app. revert Si1. clear. generalize (kept t1 a).
        induction u1 as [|e u IH]; cbn; auto. intros x Si.
        rewrite IH by (intros e' He; apply Si; cbn; auto).
        specialize (Si e (or_introl eq_refl)). apply Nat.eqb_neq in Si.
        destruct e; cbn in *; rewrite ?Si; auto. }
      destruct (IH ov (l1 ++ [x]) s3 (t1 ++ u1) s4 u2 a R1' Hr) as (H1 & H2 & H3); auto;
        unfold keeps; try (rewrite Hk; auto; fail).
      destruct (kept_reach _ _ _ _ R1) as [I Kp].
      assert (La : lockof (pcs s1 a) = lk_hold (keeps t1 a)) by (eapply keeps_lock; eauto).
      destruct (Nat.eq_dec (actor x) a) as [<-|Hn].
      + (* a step of the holder that shows nothing: there is none *)
        exfalso. specialize (Kp (actor x)).
        destruct x as [b o|b|b out|b]; cbn in *.
        * destruct (pcs s1 b); try discriminate. destruct (enter h o); try discriminate.
          injection Hs as <- <-. apply (Si1 (EvCall b o)); cbn; auto.
        * unfold step_code in Hs. destruct (kept t1 b) as [po hh] eqn:Hkb. cbn in P. subst po.
          destruct (pcs s1 b); cbn in Kp; try discriminate.
          destruct Kp as (? & ? & ? & _). discriminate.
        * destruct (pcs s1 b); try discriminate. cbn in Kp. rewrite Kp in P. discriminate.
        * destruct (pcs s1 b); try discriminate; cbn in Kp; rewrite Kp in P; discriminate.
      + destruct (step_memory_locked _ _ _ _ a I Hs Hn) as (M1 & M2 & M3).
        { rewrite La. destruct (keeps t1 a); cbn; auto. congruence. }
        repeat split; try congruence. intros b Hb. apply in_app_or in Hb as [Hb|Hb]; firstorder.
  Qed.

  (** ** C04 *)
  Theorem flag_at_rest ov (l : list (action V E)) s t :
    run (init ov) l = Some (s, t) -> (forall a, fst (kept t a) = None) ->
    flag s = is_some (value s).
  Proof.
    intros H P. destruct (kept_reach _ _ _ _ H) as [I K].
    destruct (lw s) as [a|] eqn:Hw; [|apply (i_f _ I); auto].
    apply (i_w _ I) in Hw. pose proof (i_p _ I a) as Pa. specialize (K a). specialize (P a).
    destruct (pcs s a) eqn:Hp; cbn in K; try (rewrite K in P; discriminate).
    - cbn in Hw, Pa. destruct h; cbn in *; try discriminate.
      + destruct Pa as [Pa ->]. destruct (value s); auto; congruence.
      + auto.
    - destruct K as (? & ? & K & _). rewrite K in P. discriminate.
  Qed.

  Theorem predicate_at_rest ov (l : list (action V E)) s t a :
    run (init ov) l = Some (s, t) -> (forall b, fst (kept t b) = None) -> keeps t a = HNone ->
    exists s', run s [ACall a OIsSet; AStep a; AStep a] =
               Some (s', [EvCall a OIsSet; EvRet a (RBool (is_some (value s)))]).
  Proof.
    intros H P Ka. pose proof (flag_at_rest _ _ _ _ H P) as F.
    destruct (kept_reach _ _ _ _ H) as [I K]. specialize (K a). specialize (P a).
    unfold keeps in Ka. destruct (kept t a) as [po h]. cbn in P, Ka. subst po h.
    assert (Hp : pcs s a = Hold HNone).
    { destruct (pcs s a); cbn in K; try discriminate; [congruence|].
      destruct K as (? & ? & K & _). discriminate. }
    repeat (cbn; unfold step_code, upd; rewrite ?Nat.eqb_refl, ?Hp). rewrite F. eauto.
  Qed.

  (** ** C13 *)
  Definition bad (out : outcome V E) : Prop := match out with BOk _ => False | _ => True end.

  (** What the caller is told when its builder ends badly. *)
  Definition bad_answer (o : op V) (out : outcome V E) : res V E :=
    match out with
    | BErr e => reading_err o e
    | _ => RPanic
    end.

  Ltac go Hp := repeat (cbn; unfold step_code, upd; rewrite ?Nat.eqb_refl, ?Hp).

  Lemma pending_kept (t : list (event V E)) a : pending t a = fst (kept t a).
  Proof.
    induction t as [|e t0 IH] using rev_ind; auto.
    rewrite kept_app. unfold pending in *. rewrite fold_left_app. cbn.
    destruct e; cbn; auto; destruct (Nat.eqb a0 a); auto.
  Qed.

  Theorem bad_builder_leaves_nothing ov (l : list (action V E)) s t a out s' t' :
    run (init ov) l = Some (s, t) -> bad out -> step s (ABuilt a out) = Some (s', t') ->
    exists o s'',
      pending t a = Some o /\
      run s' [AStep a; AStep a] = Some (s'', [EvRet a (bad_answer o out)]) /\
      value s'' = None /\ flag s'' = false /\ lw s'' = None /\ lr s'' = [] /\
      pcs s'' a = Hold HNone /\ (forall b, b <> a -> pcs s'' b = pcs s b).
  Proof.
    intros H B S. destruct (kept_reach _ _ _ _ H) as [I K]. specialize (K a).
    cbn in S. destruct (pcs s a) eqn:Hp; try discriminate. injection S as <- <-.
    pose proof (i_p _ I a) as Pa. rewrite Hp in Pa. cbn in Pa. destruct Pa as [Pv Pf].
    assert (Hw : lw s = Some a) by (apply (i_w _ I); rewrite Hp; auto).
    pose proof (i_x _ I _ Hw) as Hr. cbn in K.
    exists (opm m). rewrite pending_kept, K.
    destruct out; cbn in B; try tauto; go Hp;
      (eexists; split; [reflexivity|]; split;
       [destruct m; reflexivity|]; cbn; rewrite ?Nat.eqb_refl;
       repeat (split; [solve [auto]|]); unfold upd; rewrite ?Nat.eqb_refl;
       split; auto; intros b0 Hb; apply Nat.eqb_neq in Hb; rewrite ?Hb; auto).
  Qed.

  (** An abandoned call changes nothing for anybody else: not the value, not the flag,
      not the calls in progress; if it owned the lock the lock is free afterwards and
      the field is empty, as it was. *)
  Theorem abandoned_call_leaves_nothing ov (l : list (action V E)) s t a s' t' :
    run (init ov) l = Some (s, t) -> step s (ACancel a) = Some (s', t') ->
    t' = [] /\
    exists n s'', n <= 2 /\
      run s' (repeat (AStep a) n) = Some (s'', [EvRet a RCancelled]) /\
      value s'' = value s /\ flag s'' = flag s /\ lr s'' = lr s /\
      pcs s'' a = Hold HNone /\ (forall b, b <> a -> pcs s'' b = pcs s b) /\
      (lw s <> Some a -> lw s'' = lw s) /\
      (lw s = Some a -> lw s'' = None /\ lr s'' = [] /\ value s'' = None /\ flag s'' = false).
  Proof.
    intros H S. destruct (kept_reach _ _ _ _ H) as [I _].
    cbn in S. destruct (cancel (pcs s a)) as [p|] eqn:Hc; try discriminate. injection S as <- <-.
    split; auto. pose proof (i_p _ I a) as Pa.
    assert (Lw : lw s = Some a <-> lockof (pcs s a) = LW) by apply (i_w _ I).
    assert (Fin : forall f : aid -> pc, f = f -> True) by auto.
    destruct (pcs s a) eqn:Hp; try discriminate; injection Hc as <-; cbn in Lw, Pa.
    1,4,5: exists 1; eexists; split; [auto|]; split; [go Hp; reflexivity|]; cbn; unfold upd;
      rewrite Nat.eqb_refl; repeat (split; [solve [auto]|]); split;
      [intros b Hb; apply Nat.eqb_neq in Hb; rewrite ?Hb; auto|];
      split; [auto|intros Hw; apply Lw in Hw; discriminate].
    all: pose proof (proj2 Lw eq_refl) as Hw; pose proof (i_x _ I _ Hw) as Hr;
      exists 2; eexists; split; [auto|]; split; [go Hp; reflexivity|]; cbn; unfold upd;
      rewrite Nat.eqb_refl; repeat (split; [solve [auto]|]); split;
      [intros b Hb; apply Nat.eqb_neq in Hb; rewrite ?Hb; auto|];
      split; [congruence|intros _; tauto].
  Qed.

  (** ... and a new read runs the builder again. *)
  Theorem empty_field_builds_again ov (l : list (action V E)) s t a :
    run (init ov) l = Some (s, t) ->
    kept t a = (None, HNone) -> value s = None -> lw s = None -> lr s = [] ->
    forall v,
    exists s' s'',
      run s [ACall a ORead; AStep a; AStep a; AStep a] =
        Some (s', [EvCall a ORead; EvBuildStart a]) /\
      run s' (ABuilt a (BOk v) :: repeat (AStep a) 5) =
        Some (s'', [EvBuildEnd a (BOk v); EvRet a (RGuard v)]) /\ value s'' = Some v.
  Proof.
    intros H Ka Hv Hw Hr v.
    destruct (kept_reach _ _ _ _ H) as [I K]. specialize (K a). rewrite Ka in K.
    assert (Hp : pcs s a = Hold HNone).
    { destruct (pcs s a); cbn in K; try discriminate; [congruence|].
      destruct K as (? & ? & K & _). discriminate. }
    pose proof (i_b _ I) as Hb.
    eexists. eexists. split; [repeat (cbn; unfold step_code, upd; rewrite ?Nat.eqb_refl, ?Hp, ?Hv, ?Hw, ?Hr, ?Hb); reflexivity|].
    split; [repeat (cbn; unfold step_code, upd; rewrite ?Nat.eqb_refl, ?Hp, ?Hv, ?Hw, ?Hr, ?Hb); reflexivity|reflexivity].
  Qed.

  (** ** C12: at most one builder runs *)
  Theorem one_builder_at_a_time ov (l : list (action V E)) s t a b m m' :
    run (init ov) l = Some (s, t) -> pcs s a = RI_Build m -> pcs s b = RI_Build m' -> a = b.
  Proof.
    intros H Ha Hb. destruct (kept_reach _ _ _ _ H) as [I _].
    pose proof (proj2 (i_w _ I a)) as La. pose proof (proj2 (i_w _ I b)) as Lb.
    rewrite Ha in La. rewrite Hb in Lb. cbn in La, Lb.
    specialize (La eq_refl). specialize (Lb eq_refl). congruence.
  Qed.

  (** ** Locks at rest, progress, no spinning *)
  Theorem locks_at_rest ov (l : list (action V E)) s t :
    run (init ov) l = Some (s, t) -> (forall a, fst (kept t a) = None) ->
    (forall a, lw s = Some a <-> keeps t a = HM \/ keeps t a = HW) /\
    (forall a, In a (lr s) <-> keeps t a = HR).
  Proof.
    intros H R. destruct (kept_reach _ _ _ _ H) as [I K].
    assert (P : forall a, pcs s a = Hold (keeps t a)).
    { intros a. specialize (K a). specialize (R a). unfold keeps.
      destruct (kept t a) as [x h]; cbn in R; subst x. cbn.
      destruct (pcs s a); cbn in K; try discriminate K; try congruence.
      destruct K as (? & ? & K & _). discriminate K. }
    split; intros a; [rewrite (i_w _ I)|rewrite (i_r _ I)]; rewrite P; cbn;
      destruct (keeps t a); cbn; split; intros; auto; intuition discriminate.
  Qed.

  (** Whenever a call is in progress something can move, namely the container's code or a
      builder which runs, or user code keeps a guard. *)
  Lemma moves (s : st) a :
    inv s -> (forall h, pcs s a <> Hold h) ->
    (exists b s' t', step s (AStep b) = Some (s', t')) \/
    (exists b, forall out, exists s' t', step s (ABuilt b out) = Some (s', t')) \/
    (exists b h, pcs s b = Hold h /\ h <> HNone).
  Proof.
    intros I A.
    assert (W : forall b, lockof (pcs s b) = LW ->
      (exists s' t', step s (AStep b) = Some (s', t')) \/
      (forall out, exists s' t', step s (ABuilt b out) = Some (s', t')) \/
      (exists b h, pcs s b = Hold h /\ h <> HNone)).
    { intros b L. cbn [step]. unfold step_code. pose proof (i_p _ I b) as Pb.
      destruct (pcs s b) eqn:Hp; cbn in L; try discriminate L;
        try (right; left; intros; eauto; fail);
        try (right; right; destruct h; try discriminate L; eexists; eexists; (split; [exact Hp|discriminate]); fail); left; cbn in Pb; try (eauto; fail);
        try (destruct h; try discriminate L; eauto; fail);
        try (match goal with |- context [match ?d with _ => _ end] => destruct d end; eauto; fail). }
    assert (R : forall b, lockof (pcs s b) = LR -> (exists s' t', step s (AStep b) = Some (s', t')) \/
      (exists b h, pcs s b = Hold h /\ h <> HNone)).
    { intros b L. cbn [step]. unfold step_code.
      destruct (pcs s b) eqn:Hp; cbn in L; try discriminate L; try (left; eauto; fail);
        try (right; destruct h; try discriminate L; eexists; eexists; (split; [exact Hp|discriminate]); fail); left;
        try (destruct h; try discriminate L; eauto; fail);
        try (match goal with |- context [match ?d with _ => _ end] => destruct d end; eauto; fail). }
    destruct (lw s) as [b|] eqn:Hw.
    { pose proof (proj1 (i_w _ I b) Hw) as L. destruct (W b L) as [W1|[W1|W1]]; [left|right; left|right; right]; eauto. }
    destruct (lr s) as [|b r] eqn:Hr.
    2:{ assert (L : lockof (pcs s b) = LR) by (apply (i_r _ I); rewrite Hr; left; auto).
        destruct (R b L) as [R1|R1]; [left; destruct R1 as (? & ? & ?)|right; right]; eauto. }
    left. exists a. cbn [step]. unfold step_code.
    destruct (pcs s a) eqn:Hp; try (exfalso; exact (A _ eq_refl));
      rewrite ?Hw, ?Hr; try (eauto; fail);
      try (assert (L : lockof (pcs s a) = LW) by (rewrite Hp; reflexivity);
           apply (i_w _ I) in L; congruence);
      try (assert (L : lockof (pcs s a) = LR) by (rewrite Hp; reflexivity);
           apply (i_r _ I) in L; rewrite Hr in L; destruct L);
      destruct h; try (eauto; fail);
      try (assert (L : lockof (pcs s a) = LW) by (rewrite Hp; reflexivity);
           apply (i_w _ I) in L; congruence);
      try (assert (L : lockof (pcs s a) = LR) by (rewrite Hp; reflexivity);
           apply (i_r _ I) in L; rewrite Hr in L; destruct L);
      pose proof (i_p _ I a) as Pa; rewrite Hp in Pa; cbn in Pa; exfalso; intuition (auto; discriminate).
  Qed.
  (** If user code keeps no guard, then whenever a call is in progress something can
      move: a step of the container's code, or the end of a running builder. *)
  Theorem no_stuck ov (l : list (action V E)) s t a :
    run (init ov) l = Some (s, t) ->
    (forall b, fst (kept t b) = None -> keeps t b = HNone) -> fst (kept t a) <> None ->
    (exists b s' t', step s (AStep b) = Some (s', t')) \/
    (exists b, forall out, exists s' t', step s (ABuilt b out) = Some (s', t')).
  Proof.
    intros H G A. destruct (kept_reach _ _ _ _ H) as [I K].
    destruct (moves s a I) as [M|[M|(b & h & Hp & N)]]; auto.
    - intros h Hp. specialize (K a). rewrite Hp in K. cbn in K. rewrite K in A. cbn in A. congruence.
    - exfalso. apply N. specialize (K b). rewrite Hp in K. cbn in K.
      specialize (G b). unfold keeps in G. rewrite K in G. cbn in G. auto.
  Qed.

  (** How many more steps of code a call can make. *)
  Definition rank (p : pc) : nat :=
    match p with
    | Hold _ => 0
    | Ret _ _ => 1
    | Drop _ => 2
    | R_Map _ | M_Map _ | RI_Fail _ _ | RI_Unwind _ | RI_Drop _ => 2
    | RI_Done _ => 4
    | RI_SetFlag _ => 6
    | RI_SetVal _ _ => 7
    | RI_Build _ => 8
    | RI_GetBld _ => 9
    | RI_Check _ => 12
    | RI_Acq _ => 13
    | W_Acq => 2
    | C_Rel _ => 2 | C_Take => 3 | C_Flag => 4 | C_Acq => 5
    | L_Load => 2
    | K_Rel _ _ => 2 | K_Flag _ => 3 | K_Val => 4 | K_Acq => 5
    | D_Rel _ => 2 | D_Val => 3 | D_Acq => 4
    | G_Get _ | G_Set _ => 2
    | S_Rep _ | X_Take => 2
    | S_Flag _ | X_Flag => 3
    end.

  Definition code_of (a : aid) (x : action V E) : bool :=
    match x with AStep b => Nat.eqb b a | _ => false end.
  Definition call_of (a : aid) (x : action V E) : bool :=
    match x with ACall b _ => Nat.eqb b a | _ => false end.
  Definition count {A} (f : A -> bool) (l : list A) : nat := length (filter f l).

  Lemma rank_step (s : st) x s' t a : step s x = Some (s', t) ->
    rank (pcs s' a) + (if code_of a x then 1 else 0) <=
    rank (pcs s a) + (if call_of a x then 13 else 0).
  Proof.
    intros H. destruct x as [b o|b|b out|b]; cbn in H; cbn [code_of call_of].
    - destruct (pcs s b) eqn:Hp; try discriminate. destruct (enter h o) as [p|] eqn:He; try discriminate.
      injection H as <- <-. cbn. unfold upd. rewrite (Nat.eqb_sym a b).
      destruct (Nat.eqb_spec b a) as [->|]; [|lia].
      destruct h, o; cbn in He; inversion He; subst; cbn; lia.
    - unfold step_code in H. destruct (pcs s b) eqn:Hp; try discriminate;
        repeat match type of H with
        | context [match ?d with _ => _ end] => destruct d eqn:?; try discriminate
        end; try (injection H as <- <-); cbn; unfold upd; rewrite (Nat.eqb_sym a b);
        (destruct (Nat.eqb_spec b a) as [->|]; [rewrite Hp; cbn; lia|lia]).
    - destruct (pcs s b) eqn:Hp; try discriminate. injection H as <- <-.
      cbn. unfold upd. rewrite (Nat.eqb_sym a b).
      destruct (Nat.eqb_spec b a) as [->|]; [rewrite Hp; destruct out; cbn; lia|lia].
    - destruct (cancel (pcs s b)) as [p|] eqn:Hc; try discriminate. injection H as <- <-.
      cbn. unfold upd. rewrite (Nat.eqb_sym a b).
      destruct (Nat.eqb_spec b a) as [->|]; [|lia].
      destruct (pcs s a); cbn in Hc; inversion Hc; subst; cbn; lia.
  Qed.

  (** A call makes at most 13 steps of code, whatever the others do. *)
  Theorem no_spinning ov (l : list (action V E)) s t a :
    run (init ov) l = Some (s, t) -> count (code_of a) l <= 13 * count (call_of a) l.
  Proof.
    assert (G : forall (l : list (action V E)) s0 s t, run s0 l = Some (s, t) ->
              rank (pcs s a) + count (code_of a) l <= rank (pcs s0 a) + 13 * count (call_of a) l).
    { clear. induction l as [|x l IH]; cbn [run]; intros s0 s t H.
      - injection H as <- <-. cbn. lia.
      - destruct (step s0 x) as [[s1 t1]|] eqn:Hs; try discriminate.
        destruct (run s1 l) as [[s2 t2]|] eqn:Hr; try discriminate. injection H as <- <-.
        specialize (IH _ _ _ Hr). pose proof (rank_step _ _ _ _ a Hs) as Hk.
        unfold count in *. cbn [filter].
        destruct (code_of a x), (call_of a x); cbn [length] in *; lia. }
    intros H. specialize (G _ _ _ _ H). cbn in G. lia.
  Qed.
End Proofs.
