(** What can be done in AsyncProxyModel.v can be done on weak memory; knowledge from elsewhere
    changes nothing. *)
From Coq Require Import List Bool Arith Lia.
From Verif Require Import ProxyTypes AsyncProxyModel AsyncProxyInv AsyncProxyProofs WeakMem WeakMemFacts WeakAsyncModel WeakSpec WeakAsyncProofs.
Import ListNotations.

Section Weak.
  Context {V E : Type}.
  Notation st := (st V E).
  Notation pc := (pc V E).
  Notation wst := (wst V E).

  (** More knowledge and other numbers for events to come. *)
  Lemma means_more (w w' : wst) (s : st) : means w s -> core w' = core w -> flags w' = flags w -> values w' = values w ->
    kw w' = kw w -> kr w' = kr w -> log w' = log w -> racy w' = racy w -> (forall a, incl (knows w a) (knows w' a)) -> means w' s.
  Proof.
    intros [I B W R P F Vv K KW X Wr Rd Rc] E1 E2 E3 E4 E5 E6 E7 G.
    constructor; rewrite ?E1, ?E2, ?E3, ?E4, ?E5, ?E6, ?E7; auto.
    - intros a L n J. apply G, (K a L n J).
    - intros a L n J. apply G, (X a L n J).
    - intros n J. destruct (Rd n J) as [Y|(a & L & Y)]; [left; exact Y|]. right. exists a. split; [exact L|]. apply G, Y.
  Qed.
  Lemma same_sym (p q : pc) : same_pc p q -> same_pc q p.
  Proof. intros []; constructor. Qed.
  Lemma can_code (w : wst) (s : st) a s' t : means w s -> step_code s a = Some (s', t) -> exists i j, wcode w a i j <> None.
  Proof.
    intros M H. destruct (m_f _ _ M) as (fl & fn & F). destruct (m_v _ _ M) as (vl & vn & Vv).
    assert (SPa := m_p _ _ M a).
    assert (Q : pcs (core w) a = pcs s a \/ exists h b b', pcs (core w) a = Ret h (RBool b) /\ pcs s a = Ret h (RBool b'))
      by (destruct SPa; [left; reflexivity|right; eauto]).
    destruct Q as [P|(h & b & b' & Q1 & Q2)].
    2:{ exists 0, 0. unfold wcode. rewrite Q1. cbn [touch_of loads_flag loads_value stores_flag stores_value].
        unfold step_code. cbn [pcs set_flag set_value]. rewrite Q1.
        destruct (transfer _ _ _ _ _) as [[k2 kw'] kr']. discriminate. }
    set (tt := touch_of (pcs (core w) a)).
    set (i := if loads_flag tt then length fl else length vl).
    set (j := if stores_flag tt then length (flags w) else length (values w)).
    set (f := if loads_flag tt then flag s else flag (core w)).
    set (v := if loads_value tt then value s else value (core w)).
    assert (LF : exists n, (if loads_flag tt then load (knows w a) (flags w) i else Some (0, flag (core w))) = Some (n, f)).
    { unfold i, f. destruct (loads_flag tt); [|eauto]. rewrite F, load_last. eauto. }
    assert (LV : exists n, (if loads_value tt then load (knows w a) (values w) i else Some (0, value (core w))) = Some (n, v)).
    { unfold i, v. destruct (loads_value tt) eqn:X; [|eauto].
      replace (loads_flag tt) with false by (destruct tt; try discriminate; reflexivity). rewrite Vv, load_last. eauto. }
    destruct LF as (nf & LF). destruct LV as (nv & LV).
    destruct (code_same s (set_flag (set_value (core w) v) f) a (flag s) (value s) s' t) as (c & SC & _);
      try (symmetry; apply M); try (symmetry; apply P); auto.
    - intros b. cbn [pcs set_flag set_value]. apply same_sym, (m_p _ _ M).
    - intros L _. unfold f, tt. cbn [flag set_flag]. rewrite P, L. reflexivity.
    - intros L. unfold v, tt. cbn [value set_flag set_value]. rewrite P, L. reflexivity.
    - exists i, j. unfold wcode. fold tt. rewrite LF, LV. cbn [snd fst]. rewrite SC.
      assert (SF : exists x, (if stores_flag tt then store (knows w a) (flags w) j (next w, flag c) else Some (flags w)) = Some x).
      { unfold j. destruct (stores_flag tt); [rewrite store_last|]; eauto. }
      assert (SV : exists x, (if stores_value tt then store (knows w a) (values w) j (next w, value c) else Some (values w)) = Some x).
      { unfold j. destruct (stores_value tt) eqn:X; [|eauto].
        replace (stores_flag tt) with false by (destruct tt; try discriminate; reflexivity). rewrite store_last. eauto. }
      destruct SF as (gl & SF). destruct SV as (ul & SV). rewrite SF, SV.
      destruct (transfer _ _ _ _ _) as [[k2 kw'] kr']. discriminate.
  Qed.
  Lemma can_step (w : wst) (s : st) x : means w s -> step s x <> None -> exists i j, wstep w (WDo x i j) <> None.
  Proof.
    intros M H. destruct (step s x) as [[s' t]|] eqn:E0; [clear H|congruence]. destruct x as [a o|a|a b|a].
    - exists 0, 0. cbn in *. pose proof (m_p _ _ M a) as P. destruct (pcs s a) eqn:Q; try discriminate E0. inversion P as [q X Y|]; subst. rewrite Y.
      destruct (enter h o); [discriminate|discriminate E0].
    - cbn in E0. exact (can_code w s a s' t M E0).
    - exists 0, 0. cbn in *. pose proof (m_p _ _ M a) as P. destruct (pcs s a) eqn:Q; try discriminate E0. inversion P as [q X Y|]; subst. rewrite Y.
      discriminate.
    - exists 0, 0. cbn in *. pose proof (m_p _ _ M a) as P. destruct (cancel (pcs s a)) as [q|] eqn:C; [|discriminate E0].
      assert (Y : pcs (core w) a = pcs s a) by (destruct P as [p|h b b']; [reflexivity|discriminate C]).
      rewrite Y, C. discriminate.
  Qed.
End Weak.
