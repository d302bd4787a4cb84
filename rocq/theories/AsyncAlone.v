(** A call on FXProxyAsync made while all others rest returns exactly when the cell of
    GuardCell.v answers it, and with that answer. *)
From Coq Require Import List Bool Arith Lia.
From Verif Require Import ProxyTypes AtomicCell GuardCell AsyncProxyModel AsyncProxyInv.
Import ListNotations.

Section Alone.
  Context {V E : Type}.
  Notation st := (st V E).
  Variable bld : nat -> outcome V E.

  (** The code of [a] only. *)
  Definition own (a : aid) (x : action V E) : Prop :=
    match x with AStep b | ABuilt b _ => b = a | _ => False end.
  Definition at_rest (s : st) : Prop := forall b, exists h, pcs s b = Hold h.
  Definition resting (s : st) (n : nat) : gcell V := mkg (value s) (lr s) (lw s) n.

  Lemma rest_flag (s : st) : inv s -> at_rest s -> flag s = is_some (value s).
  Proof.
    intros I R. destruct (lw s) as [b|] eqn:W; [|apply (i_f _ I W)]. apply (i_w _ I) in W. destruct (R b) as [h P].
    pose proof (i_p _ I b) as K. rewrite P in W, K. destruct h; try discriminate W; cbn in K; [|exact K].
    destruct K as [K1 K2]. destruct (value s); cbn; congruence.
  Qed.
  Lemma drop_absent a (l : list aid) : ~ In a l -> filter (fun b => negb (Nat.eqb b a)) l = l.
  Proof.
    induction l as [|b l IH]; cbn; intros N; auto. destruct (Nat.eqb_spec b a); [subst; tauto|]. cbn. rewrite IH; tauto.
  Qed.

  Definition steps a k : list (action V E) := repeat (AStep a) k.
  Lemma own_steps a k : Forall (own a) (steps a k).
  Proof. induction k; constructor; cbn; auto. Qed.
  Lemma own_built a k b j : Forall (own a) (steps a k ++ ABuilt a b :: steps a j).
  Proof. apply Forall_app. split; [apply own_steps|]. constructor; [reflexivity|apply own_steps]. Qed.

  Lemma run_cons (s s1 s2 : st) x l t1 t2 :
    step s x = Some (s1, t1) -> run s1 l = Some (s2, t2) -> run s (x :: l) = Some (s2, t1 ++ t2).
  Proof. intros A B. cbn. rewrite A, B. reflexivity. Qed.
  Lemma run_nil (s : st) : run s [] = Some (s, []).
  Proof. reflexivity. Qed.
  Ltac one_step :=
    eapply run_cons;
    [ unfold step, step_code; cbn [pcs set_pc set_lock set_value set_flag value flag bset lw lr]; unfold upd at 1;
      rewrite ?Nat.eqb_refl; cbn; reflexivity | ].
  Ltac compute_run :=
    match goal with P : _ = Hold _ |- _ =>
      eapply eq_trans;
      [ cbn [steps repeat app]; eapply run_cons; [cbn; rewrite P; cbn; reflexivity|]; repeat one_step; apply run_nil
      | cbn; reflexivity ]
    end.
  Ltac others a := cbn; unfold upd; intros b; destruct (Nat.eqb b a); reflexivity.
  (** [k] steps and no builder. *)
  Ltac plain a k :=
    exists (steps a k); eexists; exists []; split; [apply own_steps|]; split; [compute_run|];
    split; [cbn; tauto|]; split; [others a|]; cbn; rewrite ?Nat.sub_diag; auto.
  (** [k] steps, the builder, [j] steps. *)
  Ltac building a k j :=
    match goal with Hb : bld ?n = ?b |- _ =>
      exists (steps a k ++ ABuilt a b :: steps a j); eexists; exists [EvBuildStart a; EvBuildEnd a b];
      split; [apply own_built|]; split; [compute_run|]; split; [cbn; intros ? ? [|[|[]]]; discriminate|]; split; [others a|];
      split; [reflexivity|]; split; [|cbn; lia];
      match goal with |- _ = map bld (seq n ?k) => replace k with 1 by (cbn -[Nat.sub]; lia) end; cbn; rewrite Hb; reflexivity
    end.

  Lemma alone_answers (s : st) n a h o c' h' r :
    inv s -> at_rest s -> pcs s a = Hold h -> (o = OClone \/ o = ODebug -> lw s = None) ->
    effect true bld a h o (resting s n) = Some (c', h', r) ->
    exists l s' t, Forall (own a) l /\ run s (ACall a o :: l) = Some (s', EvCall a o :: t ++ [EvRet a r]) /\
      (forall b q, ~ In (EvRet b q) t) /\
      (forall b, pcs s' b = if Nat.eqb b a then Hold h' else pcs s b) /\
      resting s' (g_runs c') = c' /\
      ends t = map bld (seq n (g_runs c' - n)) /\ n <= g_runs c'.
  Proof.
    intros I R P Kd Ef. pose proof (rest_flag s I R) as Fl. pose proof (i_b _ I) as B.
    pose proof (i_f _ I) as Ff. pose proof (i_p _ I a) as Pk. pose proof (i_x _ I) as X.
    pose proof (i_r _ I a) as Ra. pose proof (i_w _ I a) as Wa. rewrite P in Pk, Ra, Wa.
    destruct s as [v f b w rd p]; cbn -[run] in *. subst b f.
    assert (FR : free (mkg v rd w n) = true -> w = None /\ rd = []).
    { unfold free, open; cbn. destruct w, rd; cbn; try discriminate; auto. }
    assert (OP : open (mkg v rd w n) = true -> w = None).
    { unfold open; cbn. destruct w; try discriminate; auto. }
    destruct h, o; cbn in Ef; try discriminate Ef; destruct v as [v|]; try discriminate Ef;
      try (match type of Ef with context [if ?b then _ else _] => destruct b eqn:C; [|discriminate Ef] end;
           first [apply FR in C as [-> ->] | apply OP in C as ->]);
      try (match type of Ef with context [bld ?m] => destruct (bld m) eqn:Hb; cbn in Ef end); injection Ef as <- <- <-.
    all: try (plain a 5; fail). all: try (plain a 6; fail). all: try (plain a 4; fail). all: try (plain a 2; fail).
    all: try (plain a 3; fail).
    all: try (building a 3 5; fail). all: try (building a 3 4; fail). all: try (building a 3 2; fail).
    all: try (assert (Na : ~ In a rd) by (rewrite Ra; discriminate)).
    all: first [ rewrite (Kd (or_introl eq_refl)) in * | rewrite (Kd (or_intror eq_refl)) in * ].
    all: pose proof (drop_absent a rd Na) as Dr.
    1, 2: exists (steps a 5). 3, 4: exists (steps a 4).
    all: eexists; exists []; split; [apply own_steps|]; split; [compute_run|]; split; [cbn; tauto|]; split; [others a|].
    all: unfold resting, drop_reader; cbn; rewrite ?Nat.eqb_refl; cbn. all: unfold drop_reader; cbn; rewrite ?Nat.eqb_refl; cbn; rewrite ?Dr, ?Nat.sub_diag; auto.
  Qed.

  (** Otherwise it waits, and goes on waiting as long as nobody else moves; it can only be
      abandoned. *)
  Definition own_or_cancel (a : aid) (x : action V E) : Prop := own a x \/ x = ACancel a.
  Definition stuck (a : aid) (s : st) : Prop :=
    match pcs s a with
    | RI_Acq _ | W_Acq | C_Acq => lw s <> None \/ lr s <> []
    | Ret HNone RCancelled | Hold HNone => True
    | _ => False
    end.
  Lemma stuck_stays a (s s1 : st) x t : stuck a s -> own_or_cancel a x -> step s x = Some (s1, t) ->
    stuck a s1 /\ forall b r, In (EvRet b r) t -> r = RCancelled.
  Proof.
    unfold stuck, own_or_cancel. intros K O H.
    assert (cases : x = AStep a \/ (exists b, x = ABuilt a b) \/ x = ACancel a).
    { destruct O as [O|O]; [|auto]. destruct x; cbn in O; try contradiction; subst; eauto. }
    destruct cases as [->|[[b ->]| ->]].
    - cbn in H. unfold step_code in H. destruct s as [v f b w r p]; cbn in *.
      destruct (p a) eqn:P; try contradiction; try discriminate H.
      + destruct h, r0; try contradiction. injection H as <- <-. cbn. unfold upd. rewrite Nat.eqb_refl.
        split; auto. intros b' q [Hi|[]]. congruence.
      + destruct w, r; try discriminate H. destruct K; congruence.
      + destruct w, r; try discriminate H. destruct K; congruence.
      + destruct w, r; try discriminate H. destruct K; congruence.
    - cbn in H. destruct (pcs s a); try contradiction; discriminate H.
    - cbn in H. destruct (pcs s a); try contradiction; try discriminate H; cbn in H; injection H as <- <-; cbn; unfold upd;
        rewrite Nat.eqb_refl; tauto.
  Qed.
  Lemma stuck_run a l : forall (s s' : st) t, stuck a s -> Forall (own_or_cancel a) l -> run s l = Some (s', t) ->
    forall b r, In (EvRet b r) t -> r = RCancelled.
  Proof.
    induction l as [|x l IH]; cbn; intros s s' t K F H b r.
    - injection H as <- <-. contradiction.
    - destruct (step s x) as [[s1 t1]|] eqn:St; try discriminate H. destruct (run s1 l) as [[s2 t2]|] eqn:Rn; try discriminate H.
      injection H as <- <-. inversion F as [|? ? Ox Fl]; subst. destruct (stuck_stays _ _ _ _ _ K Ox St) as [K1 N1].
      rewrite in_app_iff. intros [Hi|Hi]; [apply (N1 _ _ Hi)|apply (IH _ _ _ K1 Fl Rn _ _ Hi)].
  Qed.
  Lemma alone_waits (s : st) n a h o l s' t :
    inv s -> at_rest s -> pcs s a = Hold h -> callable h o = true ->
    effect true bld a h o (resting s n) = None ->
    Forall (own_or_cancel a) l -> run s (ACall a o :: l) = Some (s', t) -> forall b r, In (EvRet b r) t -> r = RCancelled.
  Proof.
    intros I R P Cl Ef F H. cbn in H. rewrite P in H. destruct (enter h o) as [q|] eqn:En; try discriminate H.
    destruct (run (set_pc s a q) l) as [[s2 t2]|] eqn:Rn; try discriminate H. injection H as <- <-.
    assert (K : stuck a (set_pc s a q)).
    { unfold stuck. cbn. unfold upd. rewrite Nat.eqb_refl. pose proof (i_p _ I a) as Pk. rewrite P in Pk.
      destruct s as [v f b w rd p]; cbn in *. unfold resting, free, open in Ef; cbn in Ef.
      destruct h, o; cbn in En, Ef, Cl; try discriminate; injection En as <-; cbn;
        destruct v; destruct w, rd; cbn in *; try discriminate Ef;
        first [left; discriminate | right; discriminate | tauto ]. }
    intros b r [Hi|Hi]; [discriminate Hi|]. apply (stuck_run _ _ _ _ _ K F Rn _ _ Hi).
  Qed.
End Alone.
