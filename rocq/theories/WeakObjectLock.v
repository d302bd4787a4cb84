(** Locked fields on weak memory are answered for by LockedModel.v. *)
From Coq Require Import List Bool String Arith Lia.
From Verif Require Import ProxyTypes ArgsModel RustAst FieldSpec FieldRun ThreadSpec LockedModel LockedScripts LockedSim
  WeakMem WeakMemFacts ObjectModel WeakObjectModel.
From Verif Require WeakSyncModel.
Import ListNotations.
Open Scope list_scope.

Definition owns (s : lbox) (a : aid) : Prop := In a (b_lr s) \/ b_lw s = Some a.
Record lmeans (b : wlbox) (s : lbox) : Prop := mk_lmeans {
  lm_lr : b_lr (wl_core b) = b_lr s;
  lm_lw : b_lw (wl_core b) = b_lw s;
  lm_excl : b_lw s <> None -> b_lr s = [];
  lm_v : exists l n, wl_values b = l ++ [(n, b_val s)];
  lm_know : forall a, owns s a -> incl (ids (wl_values b)) (wl_knows b a);
  lm_kw : b_lw s = None -> incl (ids (wl_values b)) (wl_kw b);
  lm_ex : forall a, b_lw s = Some a -> incl (wl_kw b ++ wl_kr b) (wl_knows b a);
  lm_wr : forall n, In (n, true) (wl_log b) -> In n (ids (wl_values b));
  lm_rd : forall n, In (n, false) (wl_log b) -> In n (wl_kw b ++ wl_kr b) \/ exists a, owns s a /\ In n (wl_knows b a);
  lm_racy : wl_racy b = false
}.
Lemma lmeans_new o : lmeans (lock_new o) (mk_lbox o [] None).
Proof.
  constructor; cbn; auto; try (intros; discriminate).
  - exists [], 0. reflexivity.
  - intros a [[]|X]. discriminate X.
  - intros _. apply incl_refl.
  - intros n [E|[]]. injection E as <-. left. reflexivity.
  - intros n [E|[]]. discriminate E.
Qed.
Lemma lmeans_told b s a k : lmeans b s -> lmeans (lock_told a k b) s.
Proof.
  intros [Lr Lw Ex Vv K KW X Wr Rd Rc].
  assert (G : forall c, incl (wl_knows b c) (wl_knows (lock_told a k b) c)).
  { intros c n J. cbn. unfold WeakSyncModel.updk. destruct (Nat.eqb_spec c a) as [->|N]; [apply in_or_app; auto|exact J]. }
  constructor; auto.
  - intros c O n J. apply G, (K c O n J).
  - intros c O n J. apply G, (X c O n J).
  - intros n J. destruct (Rd n J) as [Y|(c & O & Y)]; [left; exact Y|]. right. exists c. split; [exact O|]. apply G, Y.
Qed.

Lemma updk_same f a k : WeakSyncModel.updk f a k a = k.
Proof. unfold WeakSyncModel.updk. now rewrite Nat.eqb_refl. Qed.
Lemma updk_other f a b k : b <> a -> WeakSyncModel.updk f a k b = f b.
Proof. intros N. unfold WeakSyncModel.updk. apply Nat.eqb_neq in N. now rewrite N. Qed.
Lemma lown_ex b a : b_lw b = Some a -> lown b a = Exclusive.
Proof. intros E. unfold lown. now rewrite E, Nat.eqb_refl. Qed.
Lemma lown_sh b a : b_lw b = None -> In a (b_lr b) -> lown b a = Shared.
Proof. intros E I. unfold lown. rewrite E. apply memb_in in I. now rewrite I. Qed.
Lemma lown_free b a : ~ owns b a -> lown b a = WeakMem.Free.
Proof.
  intros N. unfold lown. destruct (b_lw b) as [c|] eqn:E.
  - destruct (Nat.eqb_spec c a) as [->|D]; [destruct N; right; assumption|].
    destruct (existsb (Nat.eqb a) (b_lr b)) eqn:X; [|reflexivity]. apply memb_in in X. destruct N. now left.
  - destruct (existsb (Nat.eqb a) (b_lr b)) eqn:X; [|reflexivity]. apply memb_in in X. destruct N. now left.
Qed.
Lemma lown_same b s a : lmeans b s -> lown (wl_core b) a = lown s a.
Proof. intros M. unfold lown. now rewrite (lm_lr _ _ M), (lm_lw _ _ M). Qed.
Lemma owns_dec s a : owns s a \/ ~ owns s a.
Proof.
  unfold owns. destruct (in_dec Nat.eq_dec a (b_lr s)) as [I|N]; [auto|]. destruct (b_lw s) as [c|].
  - destruct (Nat.eq_dec c a) as [->|D]; [auto|]. right. intros [I|E]; [auto|congruence].
  - right. intros [I|E]; [auto|discriminate E].
Qed.
(** The lock on both sides. *)
Lemma lstep_same (c s : lbox) a o c' : b_lr c = b_lr s -> b_lw c = b_lw s -> lstep c a o = Some c' ->
  exists s', lstep s a o = Some s' /\ b_lr c' = b_lr s' /\ b_lw c' = b_lw s' /\
    b_val s' = match o with LSwap x => x | _ => b_val s end.
Proof.
  intros R W H. unfold lstep in *. rewrite ?R, ?W in H. destruct o as [[|]| |x|]; cbn in *.
  - destruct (b_lw s), (b_lr s); try discriminate H. injection H as <-. eexists. split; [reflexivity|]. auto.
  - destruct (b_lw s); try discriminate H. injection H as <-. eexists. split; [reflexivity|]. auto.
  - injection H as <-. eexists. split; [reflexivity|]. auto.
  - destruct (b_lw s) as [z|]; [|discriminate H]. destruct (Nat.eqb z a); [|discriminate H]. injection H as <-.
    eexists. split; [reflexivity|]. auto.
  - injection H as <-. eexists. split; [reflexivity|]. auto.
Qed.
Lemma no_races k log (vals : list nat) wr : incl vals k -> (forall n, In (n, true) log -> In n vals) ->
  (wr = true -> forall n, In (n, false) log -> In n k) -> races k log wr = false.
Proof.
  intros I W R. unfold races. destruct (existsb _ log) eqn:X; [|reflexivity]. exfalso.
  apply existsb_exists in X as ([n b] & J & Y). cbn in Y. apply andb_true_iff in Y as [Y1 Y2].
  apply negb_true_iff in Y2. assert (K : In n k); [|apply memb_in in K; congruence].
  destruct b; [apply I, W, J|]. rewrite orb_false_r in Y1. apply R; assumption.
Qed.
Lemma ids_snoc {A} (l : WeakMem.place A) m : ids (l ++ [m]) = ids l ++ [fst m].
Proof. unfold ids. now rewrite map_app. Qed.

Lemma wlstep_means n i j b s a o b' v : lmeans b s ->
  match o with LAcq _ => ~ owns s a | LLook => owns s a | _ => True end ->
  wlstep n i j b a o = Some (b', v) ->
  exists s', lstep s a o = Some s' /\ lmeans b' s' /\ (o <> LDrop -> v = b_val s).
Proof.
  intros M D H. pose proof M as [Lr Lw Ex (vl & vn & Vv) K KW X Wr Rd Rc]. unfold wlstep in H.
  destruct (lstep (wl_core b) a o) as [c|] eqn:LS; [|discriminate H].
  destruct (lstep_same _ s _ _ _ Lr Lw LS) as (s' & SS & Lr' & Lw' & Va). exists s'. split; [exact SS|].
  assert (OC : lown c a = lown s' a) by (unfold lown; rewrite Lr', Lw'; reflexivity).
  rewrite (lown_same b s a M), OC in H.
  assert (Last : forall k, incl (ids (wl_values b)) k -> In vn k).
  { intros k I. apply I. rewrite Vv, ids_snoc. apply in_or_app. right. left. reflexivity. }
  destruct o as [[|]| |x|].
  - (* to write *)
    assert (S0 : b_lw s = None /\ b_lr s = [] /\ s' = mk_lbox (b_val s) [] (Some a)).
    { cbn in SS. destruct (b_lw s), (b_lr s); try discriminate SS. injection SS as <-. auto. }
    destruct S0 as (W0 & R0 & ->). rewrite (lown_free s a D), (lown_ex (mk_lbox (b_val s) [] (Some a)) a eq_refl) in H. cbn [transfer] in H.
    destruct (load _ (wl_values b) i) as [y|] eqn:L; [|discriminate H]. injection H as <- <-.
    assert (KN : incl (ids (wl_values b)) (wl_knows b a ++ wl_kw b ++ wl_kr b)).
    { intros m J. rewrite !in_app_iff. right. left. apply KW; assumption. }
    split; [|intros _; rewrite Vv in L; destruct (load_known _ vl (vn, b_val s) _ _ (Last _ KN) L) as [-> _]; reflexivity].
    constructor; cbn [wl_core wl_values wl_knows wl_kw wl_kr wl_log wl_racy b_val b_lr b_lw]; auto.
    + exists vl, vn. exact Vv.
    + intros d [[]|E]. injection E as <-. rewrite updk_same. intros m J. right. apply KN, J.
    + intros d E. injection E as <-. rewrite updk_same. intros m J. right. apply in_or_app. auto.
    + intros m [E|J]; [discriminate E|apply Wr, J].
    + intros m [E|J]; [injection E as <-; right; exists a; split; [right; reflexivity|]; rewrite updk_same; left; reflexivity|].
      destruct (Rd m J) as [Y|(d & [O|O] & Y)]; [left; exact Y|rewrite R0 in O; destruct O|congruence].
    + rewrite Rc. cbn. apply (no_races _ _ _ _ KN Wr). discriminate.
  - (* to read *)
    assert (S0 : b_lw s = None /\ s' = mk_lbox (b_val s) (a :: b_lr s) None).
    { cbn in SS. destruct (b_lw s); try discriminate SS. injection SS as <-. auto. }
    destruct S0 as (W0 & ->). rewrite (lown_free s a D), (lown_sh (mk_lbox (b_val s) (a :: b_lr s) None) a eq_refl (or_introl eq_refl)) in H. cbn [transfer] in H.
    destruct (load _ (wl_values b) i) as [y|] eqn:L; [|discriminate H]. injection H as <- <-.
    assert (KN : incl (ids (wl_values b)) (wl_knows b a ++ wl_kw b)).
    { intros m J. rewrite !in_app_iff. right. apply KW; assumption. }
    split; [|intros _; rewrite Vv in L; destruct (load_known _ vl (vn, b_val s) _ _ (Last _ KN) L) as [-> _]; reflexivity].
    constructor; cbn [wl_core wl_values wl_knows wl_kw wl_kr wl_log wl_racy b_val b_lr b_lw]; auto.
    + congruence.
    + exists vl, vn. exact Vv.
    + intros d O. destruct (Nat.eq_dec d a) as [->|N].
      * rewrite updk_same. intros m J. right. apply KN, J.
      * rewrite updk_other by exact N. apply K. destruct O as [[O|O]|O]; [congruence|left; exact O|discriminate O].
    + discriminate.
    + intros m [E|J]; [discriminate E|apply Wr, J].
    + intros m [E|J]; [injection E as <-; right; exists a; split; [left; left; reflexivity|]; rewrite updk_same; left; reflexivity|].
      destruct (Rd m J) as [Y|(d & O & Y)]; [left; exact Y|]. right. exists d. split.
      * destruct O as [O|O]; [left; right; exact O|congruence].
      * destruct (Nat.eq_dec d a) as [->|N]; [destruct (D O)|]. rewrite updk_other by exact N. exact Y.
    + rewrite Rc. cbn. apply (no_races _ _ _ _ KN Wr). discriminate.
  - (* look *)
    injection SS as <-.
    assert (T : transfer (lown s a) (lown s a) (wl_knows b a) (wl_kw b) (wl_kr b) = (wl_knows b a, wl_kw b, wl_kr b))
      by (destruct (lown s a); reflexivity).
    rewrite T in H. destruct (load _ (wl_values b) i) as [y|] eqn:L; [|discriminate H]. injection H as <- <-.
    assert (KN := K a D).
    split; [|intros _; rewrite Vv in L; destruct (load_known _ vl (vn, b_val s) _ _ (Last _ KN) L) as [-> _]; reflexivity].
    assert (G : forall d, incl (wl_knows b d) (WeakSyncModel.updk (wl_knows b) a (n :: wl_knows b a) d)).
    { intros d m J. destruct (Nat.eq_dec d a) as [->|N]; [rewrite updk_same; right; exact J|rewrite updk_other by exact N; exact J]. }
    constructor; cbn [wl_core wl_values wl_knows wl_kw wl_kr wl_log wl_racy b_val b_lr b_lw]; auto.
    + exists vl, vn. exact Vv.
    + intros d O m J. apply G, (K d O m J).
    + intros d O m J. apply G, (X d O m J).
    + intros m [E|J]; [discriminate E|apply Wr, J].
    + intros m [E|J]; [injection E as <-; right; exists a; split; [exact D|]; rewrite updk_same; left; reflexivity|].
      destruct (Rd m J) as [Y|(d & O & Y)]; [left; exact Y|]. right. exists d. split; [exact O|apply G, Y].
    + rewrite Rc. cbn. apply (no_races _ _ _ _ KN Wr). discriminate.
  - (* exchange *)
    assert (S0 : b_lw s = Some a /\ s' = mk_lbox x (b_lr s) (b_lw s)).
    { cbn in SS. destruct (b_lw s) as [z|]; [|discriminate SS]. destruct (Nat.eqb_spec z a) as [->|]; [|discriminate SS]. injection SS as <-. auto. }
    destruct S0 as (W0 & ->). rewrite (lown_ex s a W0), (lown_ex (mk_lbox x (b_lr s) (b_lw s)) a W0) in H. cbn [transfer] in H.
    destruct (load _ (wl_values b) i) as [y|] eqn:L; [|discriminate H].
    destruct (WeakMem.store _ (wl_values b) j (n, x)) as [ul|] eqn:U; [|discriminate H]. injection H as <- <-.
    assert (O1 : owns s a) by (right; exact W0). assert (KN := K a O1).
    split; [|intros _; rewrite Vv in L; destruct (load_known _ vl (vn, b_val s) _ _ (Last _ KN) L) as [-> _]; reflexivity].
    assert (E : ul = wl_values b ++ [(n, x)]).
    { rewrite Vv in U |- *. exact (store_known _ vl (vn, b_val s) _ _ _ (Last _ KN) U). }
    assert (R0 : b_lr s = []) by (apply Ex; congruence).
    assert (Al : forall d, owns s d -> d = a) by (intros d [O|O]; [rewrite R0 in O; destruct O|congruence]).
    constructor; cbn [wl_core wl_values wl_knows wl_kw wl_kr wl_log wl_racy b_val b_lr b_lw]; auto.
    + exists (wl_values b), n. exact E.
    + intros d O. apply Al in O. subst d. rewrite updk_same, E, ids_snoc. intros m J. apply in_app_or in J.
      destruct J as [J|[<-|[]]]; [right; apply KN, J|left; reflexivity].
    + congruence.
    + intros d O m J. assert (d = a) by congruence. subst d. rewrite updk_same. right. apply (X a W0 m J).
    + intros m [Q|J]; rewrite E, ids_snoc; apply in_or_app; [injection Q as <-; right; left; reflexivity|left; apply Wr, J].
    + intros m [Q|J]; [discriminate Q|]. destruct (Rd m J) as [Y|(d & O & Y)]; [left; exact Y|]. right. exists d. split; [exact O|].
      apply Al in O. subst d. rewrite updk_same. right. exact Y.
    + rewrite Rc. cbn [orb]. apply (no_races _ _ _ _ KN Wr). intros _ m J. destruct (Rd m J) as [Y|(d & O & Y)].
      * apply (X a W0 m Y).
      * apply Al in O. subst d. exact Y.
  - (* drop *)
    injection SS as <-. set (s' := mk_lbox _ _ _) in *.
    assert (NO : ~ owns s' a).
    { intros [O|O]; cbn in O.
      - apply filter_In in O as [_ O]. rewrite Nat.eqb_refl in O. discriminate O.
      - destruct (b_lw s) as [z|]; [|discriminate O]. destruct (Nat.eqb_spec z a) as [E|N]; [discriminate O|congruence]. }
    assert (Oth : forall d, d <> a -> (owns s' d <-> owns s d)).
    { intros d N. unfold owns; cbn. rewrite filter_In, negb_true_iff, Nat.eqb_neq.
      destruct (b_lw s) as [z|]; [|tauto]. destruct (Nat.eqb_spec z a) as [E|N2]; [|tauto].
      split; [intros [[O _]|O]; [tauto|discriminate O]|intros [O|O]; [tauto|congruence]]. }
    rewrite (lown_free s' a NO) in H.
    destruct (transfer (lown s a) WeakMem.Free (wl_knows b a) (wl_kw b) (wl_kr b)) as [[k2 kw'] kr'] eqn:T.
    injection H as <- <-. split; [|intros Q; congruence].
    assert (K2 : k2 = wl_knows b a) by (destruct (lown s a); cbn in T; injection T as <- _ _; reflexivity).
    assert (Kp : forall d, WeakSyncModel.updk (wl_knows b) a k2 d = wl_knows b d).
    { intros d. destruct (Nat.eq_dec d a) as [->|N]; [rewrite updk_same; exact K2|apply updk_other, N]. }
    assert (KWG : incl (wl_kw b) kw' /\ incl (wl_kr b) kr').
    { pose proof (transfer_lock (lown s a) WeakMem.Free (wl_knows b a) (wl_kw b) (wl_kr b)) as TL. rewrite T in TL. exact TL. }
    constructor; cbn [wl_core wl_values wl_knows wl_kw wl_kr wl_log wl_racy]; auto.
    + cbn. intros N. destruct (b_lw s) as [z|] eqn:Z; [|congruence]. rewrite (Ex ltac:(discriminate)). reflexivity.
    + exists vl, vn. exact Vv.
    + intros d O. rewrite Kp. apply K. apply (Oth d); [|exact O]. intros ->. exact (NO O).
    + cbn. intros Q. destruct (b_lw s) as [z|] eqn:Z.
      * destruct (Nat.eqb_spec z a) as [E|N]; [|discriminate Q]. rewrite E in Z. rewrite (lown_ex s a Z) in T. cbn in T. injection T as _ <- _.
        intros m J. apply in_or_app. left. apply (K a); [right; exact Z|exact J].
      * intros m J. apply KWG, (KW eq_refl m J).
    + cbn. intros d Q. rewrite Kp. destruct (b_lw s) as [z|] eqn:Z; [|discriminate Q].
      destruct (Nat.eqb_spec z a) as [E|N]; [discriminate Q|]. injection Q as Q. rewrite <- Q.
      assert (F : lown s a = WeakMem.Free).
      { apply lown_free. intros [O|O]; [rewrite (Ex ltac:(discriminate)) in O; destruct O|congruence]. }
      rewrite F in T. cbn in T. injection T as _ <- <-. apply X. reflexivity.
    + intros m J. destruct (Rd m J) as [Y|(d & O & Y)].
      * left. apply in_app_iff in Y. apply in_or_app. destruct Y as [Y|Y]; [left; apply KWG, Y|right; apply KWG, Y].
      * destruct (Nat.eq_dec d a) as [->|N].
        -- left. destruct O as [O|O].
           ++ assert (Z : b_lw s = None) by (destruct (b_lw s); [rewrite (Ex ltac:(discriminate)) in O; destruct O|reflexivity]).
              rewrite (lown_sh s a Z O) in T. cbn in T. injection T as _ <- <-. rewrite !in_app_iff. auto.
           ++ rewrite (lown_ex s a O) in T. cbn in T. injection T as _ <- <-. rewrite !in_app_iff. auto.
        -- right. exists d. rewrite Kp. split; [apply Oth; assumption|exact Y].
Qed.
(** What the lock allows it allows on weak memory. *)
Lemma wlstep_can n b s a o : lmeans b s -> lstep s a o <> None -> exists i j, wlstep n i j b a o <> None.
Proof.
  intros M H. destruct (lm_v _ _ M) as (vl & vn & Vv). exists (List.length vl), (List.length (wl_values b)).
  unfold wlstep. assert (Q : lstep (wl_core b) a o <> None).
  { unfold lstep in *. rewrite (lm_lr _ _ M), (lm_lw _ _ M). destruct o as [[|]| |x|]; try discriminate.
    - destruct (b_lw s), (b_lr s); try congruence; discriminate.
    - destruct (b_lw s); try congruence; discriminate.
    - destruct (b_lw s) as [z|]; [|congruence]. destruct (Nat.eqb z a); [discriminate|congruence]. }
  destruct (lstep (wl_core b) a o) as [c|]; [|congruence].
  destruct (transfer _ _ _ _ _) as [[k kw] kr].
  assert (L : load k (wl_values b) (List.length vl) = Some (vn, b_val s)) by (rewrite Vv; apply load_last).
  destruct o as [w| |x|]; try discriminate; rewrite L; try discriminate. rewrite store_last. discriminate.
Qed.
