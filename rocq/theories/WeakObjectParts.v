(** Any field on weak memory is answered for by ObjectModel.v. *)
From Coq Require Import List Bool String Arith Lia.
From Verif Require Import ProxyTypes ArgsModel CtxModel RustAst CommonGen StructGen FieldSpec FieldRun GuardCell
  ThreadSpec ThreadModel ThreadScripts ThreadProofs LockedModel LockedScripts LockedSim LockedProofs ObjectSpec ObjectModel ObjectParts
  WeakMem WeakMemFacts WeakSpec WeakObjectModel WeakObjectThreads WeakObjectLock.
From Verif Require SyncProxyModel AsyncProxyModel WeakSyncModel WeakAsyncModel WeakSyncProofs WeakAsyncProofs WeakSyncCan WeakAsyncCan.
Import ListNotations.
Open Scope list_scope.

(** ** The containers of lazy fields *)
Lemma wsync_sim i j w s y w' t : WeakSyncProofs.means w s -> wsync_box i j w y = Some (w', t) ->
  exists s' t', sync_box s y = Some (s', t') /\ Forall2 (@WeakSpec.alike nat nat) t t' /\ WeakSyncProofs.means w' s'.
Proof.
  intros M H. destruct y as [a o|a|a b|a]; cbn [wsync_box] in H; [| | |discriminate H];
    destruct (WeakSyncProofs.wstep_means _ _ _ _ _ M H) as (s' & t' & R & A & M'); exists s', t'; cbn [sync_box];
    unfold WeakSyncModel.strong in R; cbn [flat_map app SyncProxyModel.run] in R;
    match type of R with match ?x with _ => _ end = _ => destruct x as [[s1 t1]|]; [|discriminate R] end;
    rewrite app_nil_r in R; injection R as <- <-; auto.
Qed.
Lemma wasync_sim i j w s y w' t : WeakAsyncProofs.means w s -> wasync_box i j w y = Some (w', t) ->
  exists s' t', async_box s y = Some (s', t') /\ Forall2 (@WeakSpec.alike nat nat) t t' /\ WeakAsyncProofs.means w' s'.
Proof.
  intros M H. unfold wasync_box in H.
  destruct (WeakAsyncProofs.wstep_means _ _ _ _ _ M H) as (s' & t' & R & A & M'); exists s', t'.
  unfold WeakAsyncModel.strong in R; cbn [flat_map app AsyncProxyModel.run] in R. unfold async_box.
  match type of R with match ?x with _ => _ end = _ => destruct x as [[s1 t1]|]; [|discriminate R] end.
  rewrite app_nil_r in R; injection R as <- <-; auto.
Qed.
Lemma wsync_can w s y : WeakSyncProofs.means w s -> sync_box s y <> None -> exists i j, wsync_box i j w y <> None.
Proof.
  intros M H. destruct y as [a o|a|a b|a]; cbn [sync_box wsync_box] in *; [| | |congruence]; apply (WeakSyncCan.can_step w s _ M H).
Qed.
Lemma wasync_can w s y : WeakAsyncProofs.means w s -> async_box s y <> None -> exists i j, wasync_box i j w y <> None.
Proof. intros M H. exact (WeakAsyncCan.can_step w s _ M H). Qed.
Lemma sync_at_means n w s : WeakSyncProofs.means w s -> WeakSyncProofs.means (sync_at n w) s.
Proof. intros M. apply (WeakSyncCan.means_more w); auto. intros a. apply incl_refl. Qed.
Lemma async_at_means n w s : WeakAsyncProofs.means w s -> WeakAsyncProofs.means (async_at n w) s.
Proof. intros M. apply (WeakAsyncCan.means_more w); auto. intros a. apply incl_refl. Qed.
Lemma grows (f : aid -> list nat) b k a : incl (f a) (WeakSyncModel.updk f b (k ++ f b) a).
Proof. unfold WeakSyncModel.updk. destruct (Nat.eqb_spec a b) as [->|N]; [intros n J; apply in_or_app; auto|apply incl_refl]. Qed.
Lemma sync_told_means b k w s : WeakSyncProofs.means w s -> WeakSyncProofs.means (sync_told b k w) s.
Proof. intros M. apply (WeakSyncCan.means_more w); auto. intros a. apply grows. Qed.
Lemma async_told_means b k w s : WeakAsyncProofs.means w s -> WeakAsyncProofs.means (async_told b k w) s.
Proof. intros M. apply (WeakAsyncCan.means_more w); auto. intros a. apply grows. Qed.

(** ** What the code of a locked field does next *)
Lemma to_fin c o g : LockedScripts.alike c (LFin o g) -> c = LFin o g.
Proof. intros A. inversion A. reflexivity. Qed.
Lemma next_lop asy opt keeps s w a o k : linked asy opt keeps s w -> l_thr s a = LDoing (LOp o k) ->
  match o with
  | LAcq _ => ~ owns (l_box s) a
  | LLook => owns (l_box s) a
  | LDrop => forall y z, k y = k z
  | LSwap _ => True
  end.
Proof.
  intros (hold & T & L & _) E. pose proof (T a) as Ta. rewrite E in Ta.
  assert (None_ : hold a = None -> ~ owns (l_box s) a).
  { intros N [O|O]; [apply (k_lr _ _ _ _ _ L) in O|apply (k_lw _ _ _ _ _ L) in O]; congruence. }
  assert (Some_ : forall b, hold a = Some b -> owns (l_box s) a).
  { intros [|] N; [right; apply (k_lw _ _ _ _ _ L), N|left; apply (k_lr _ _ _ _ _ L), N]. }
  inversion Ta as [|? ? ? ? ? ?|c kd n Lk A E1 E2 E3|c kd n ww oo e Lk St A E1 E2 E3|c an ww A E1 E2 E3| |
                   |g u Rw Us E1 E2 E3]; subst.
  - destruct (lstd_acq opt keeps kd n Lk) as (ww & ck & Q). rewrite Q in A. inversion A as [| |? ? ? ? Q1 Q2]; subst. cbn.
    apply None_. auto.
  - inversion A as [| |? ? ? ? Q1 Q2]; subst. unfold stage in St.
    destruct kd; try discriminate St; try (destruct keeps; [discriminate St|]); injection St as <- <- <-; cbn; try exact I;
      eapply Some_; eauto.
  - inversion A as [| |? ? ? Q0 Q1 Q2]; subst. cbn. intros y z. rewrite (to_fin _ _ _ (Q0 y)), (to_fin _ _ _ (Q0 z)). reflexivity.
  - destruct u as [|x|]; cbn in *; match goal with X : LOp _ _ = LOp o k |- _ => injection X as <- <- end; cbn; try exact I.
    + eapply Some_; eauto.
    + reflexivity.
Qed.

Section Field.
Variables (c : sctx) (f : field).
Variables (dflt : nat) (user : string -> nat) (o : option nat) (p : part).
Hypothesis Sk : f_is_skipped f = false.
Hypothesis Po : part_of c f o = Some p.
Hypothesis Wk : forall k, In k (map m_kind (p_methods p)) -> works c f k = true.
Notation keeps := (negb (is_clone c f || is_copy c f)).
Notation no_builder := (fun _ : nat => BPanic).

Definition fmeans (g : wfield) (s : fstate) : Prop :=
  match p_store p, g, s with
  | KeptLazy false, GSync w, FSync s => like _ _ WeakSyncProofs.means w s
  | KeptLazy true, GAsync w, FAsync s => like _ _ WeakAsyncProofs.means w s
  | KeptLocked a op, GLock b th, FLock s => lmeans b (l_box s) /\ (forall x, th x = l_thr s x) /\ exists w, linked a op keeps s w
  | KeptOpen, GOpen w th, FOpen v th' =>
      wn_value w = (0, v) /\ (forall x, th x = th' x) /\ (forall a, In 0 (wn_knows w a)) /\
      (forall n, In (n, true) (wn_log w) -> n = 0) /\ wn_racy w = false /\
      exists x, open_tied (p_methods p) p o (FOpen v th') x
  | _, _, _ => False
  end.
Lemma fmeans_start : fmeans (wpart_start p) (part_start p).
Proof.
  destruct (part_facts c f o p Po) as (ty & ms & T & M & So & Rp & Pm & Pf & Pc).
  unfold fmeans, wpart_start, part_start. destruct (p_store p) as [[|]|a op|] eqn:Ps.
  - split; [apply WeakAsyncProofs.means_init|intros a; constructor].
  - split; [apply WeakSyncProofs.means_init|intros a; constructor].
  - apply store_lock in So. split; [apply lmeans_new|]. split; [reflexivity|]. eexists.
    apply (linked_start a op keeps no_builder 0). rewrite Pc.
    exact (has_start c f ty a op T So o (stored_content c f o p Sk Po ty T Rp)).
  - cbn. split; [reflexivity|]. split; [reflexivity|]. split; [auto|]. split; [intros n [E|[]]; injection E as <-; reflexivity|].
    split; [reflexivity|]. exists (wstart o). pose proof (open_start (p_methods p) p o Ps) as O. unfold part_start in O. rewrite Ps in O. exact O.
Qed.
Lemma fmeans_told g s a k : fmeans g s -> fmeans (wtold a k g) s.
Proof.
  unfold fmeans. destruct (p_store p) as [[|]|b op|], g as [w|w|w th|w th], s as [s|s|s|v th']; cbn; try (intros H; exact H).
  - intros [M T]. split; [apply async_told_means, M|exact T].
  - intros [M T]. split; [apply sync_told_means, M|exact T].
  - intros [M T]. split; [apply lmeans_told, M|exact T].
  - intros (E & T & K & L). split; [exact E|]. split; [exact T|]. split; [|exact L]. intros x. apply grows, K.
Qed.
Lemma fmeans_raced g s : fmeans g s -> wraced g = false.
Proof.
  unfold fmeans. destruct (p_store p) as [[|]|b op|], g as [w|w|w th|w th], s as [s|s|s|v th']; cbn; try (intros []; fail).
  - intros [M _]. exact (WeakAsyncProofs.m_racy _ _ M).
  - intros [M _]. exact (WeakSyncProofs.m_racy _ _ M).
  - intros [M _]. exact (lm_racy _ _ M).
  - intros (_ & _ & _ & _ & R & _). exact R.
Qed.
Lemma fmeans_place g s a : fmeans g s -> place_of (bare g) a = place_of s a.
Proof.
  unfold fmeans. destruct (p_store p) as [[|]|b op|], g as [w|w|w th|w th], s as [s|s|s|v th']; cbn; try (intros []; fail).
  - intros [_ T]. pose proof (T a) as Ta. destruct Ta; reflexivity.
  - intros [_ T]. pose proof (T a) as Ta. destruct Ta; reflexivity.
  - intros (_ & T & _). rewrite T. reflexivity.
  - intros (_ & T & _). rewrite T. reflexivity.
Qed.
(** A builder can end on both sides or on neither. *)
Lemma fmeans_built g s a b : fmeans g s -> part_step dflt user p (bare g) (MBuilt a b) <> None -> part_step dflt user p s (MBuilt a b) <> None.
Proof.
  unfold fmeans, part_step. destruct (p_store p) as [[|]|z op|], g as [w|w|w th|w th], s as [s|s|s|v th']; cbn [bare]; try (intros []; fail).
  - intros [M T] H. pose proof (T a) as Ta. unfold mstep in *. cbn [m_thr m_box] in *. destruct Ta; try congruence.
    unfold async_box, AsyncProxyModel.step in *. pose proof (WeakAsyncProofs.m_p _ _ M a) as P.
    destruct (AsyncProxyModel.pcs (WeakAsyncModel.core (m_box w)) a) eqn:Q; try congruence. inversion P as [q X Y|]; subst. discriminate.
  - intros [M T] H. pose proof (T a) as Ta. unfold mstep in *. cbn [m_thr m_box] in *. destruct Ta; try congruence.
    unfold sync_box, SyncProxyModel.step in *. pose proof (WeakSyncProofs.m_p _ _ M a) as P.
    destruct (SyncProxyModel.pcs (WeakSyncModel.core (m_box w)) a) eqn:Q; try congruence. inversion P as [q X Y|]; subst. discriminate.
  - cbn. congruence.
  - cbn. congruence.
Qed.
Lemma lazy_scripts : forall a, p_store p = KeptLazy a -> forall m n, In m (p_methods p) -> clike (script a true m n) (script a true m n).
Proof.
  destruct (part_facts c f o p Po) as (ty & ms & T & M & So & Rp & Pm & Pf & Pc). intros a Ps m n I. rewrite Pm in *. rewrite Ps in So.
  destruct (lazy_type c f ty a T So) as (Sy & La & _ & As).
  destruct (methods_std c f true ms Sy La Sk M (fun _ => eq_refl) Wk m n I) as [_ E]. rewrite As in E. rewrite E. apply std_like.
Qed.
Lemma same_hist (h : list hist) : Forall2 hlike h h.
Proof. induction h; constructor; [constructor|assumption]. Qed.
Lemma fmeans_step n i j g s x g' h t : fmeans g s -> wpart_step dflt user p n i j g x = Some (g', h, t) ->
  exists s' h' t', part_step dflt user p s x = Some (s', h', t') /\ Forall2 hlike h h' /\ ((forall a, p_store p <> KeptLazy a) -> h = h') /\
    Forall2 (@WeakSpec.alike nat nat) t t' /\ fmeans g' s'.
Proof.
  destruct (part_facts c f o p Po) as (ty & ms & T & M & So & Rp & Pm & Pf & Pc).
  unfold fmeans, wpart_step, part_step.
  destruct (p_store p) as [[|]|ya op|] eqn:Ps, g as [w|w|w th|w th], s as [s|s|s|v th']; try (intros []; fail).
  - intros [B Th] H.
    destruct (mstep _ (wasync_box i j) (p_methods p) true true (mk_mstate (async_at n (m_box w)) (m_thr w)) x) as [[[w' h0] t0]|] eqn:E; [|discriminate H].
    injection H as <- <- <-.
    destruct (mstep_like _ _ wasync_box async_box WeakAsyncProofs.means (p_methods p) true true (lazy_scripts true Ps) wasync_sim
      i j (mk_mstate (async_at n (m_box w)) (m_thr w)) s x _ _ _ (conj (async_at_means n _ _ B) Th) E) as (s' & h' & t' & S1 & Hh & Ht & L).
    rewrite S1. exists (FAsync s'), h', t'. split; [reflexivity|]. split; [exact Hh|]. split; [intros N; destruct (N true); reflexivity|]. split; [exact Ht|exact L].
  - intros [B Th] H.
    destruct (mstep _ (wsync_box i j) (p_methods p) false true (mk_mstate (sync_at n (m_box w)) (m_thr w)) x) as [[[w' h0] t0]|] eqn:E; [|discriminate H].
    injection H as <- <- <-.
    destruct (mstep_like _ _ wsync_box sync_box WeakSyncProofs.means (p_methods p) false true (lazy_scripts false Ps) wsync_sim
      i j (mk_mstate (sync_at n (m_box w)) (m_thr w)) s x _ _ _ (conj (sync_at_means n _ _ B) Th) E) as (s' & h' & t' & S1 & Hh & Ht & L).
    rewrite S1. exists (FSync s'), h', t'. split; [reflexivity|]. split; [exact Hh|]. split; [intros N; destruct (N false); reflexivity|]. split; [exact Ht|exact L].
  - intros (B & Th & (lw & Lk)) H. apply store_lock in So.
    destruct (as_lact x) as [y|]; [|discriminate H].
    destruct (wlmove ya op (p_methods p) n i j w th y) as [[[b' th'] h0]|] eqn:E; [|discriminate H]. injection H as <- <- <-.
    assert (Q : exists s', lmove ya op (p_methods p) s y = Some (s', h0) /\ lmeans b' (l_box s') /\ forall z, th' z = l_thr s' z).
    { assert (Set_ : forall a t1, forall z, set_lthr th a t1 z = set_lthr (l_thr s) a t1 z)
        by (intros a t1 z; unfold set_lthr; destruct (Nat.eqb z a); auto).
      destruct y as [a k m|a u|a|a]; unfold wlmove in E; cbn [lmove l_thr l_box] in E |- *; rewrite Th in E.
      - destruct (l_thr s a); try discriminate E. destruct (find_method k (p_methods p)) as [md|]; [|discriminate E].
        injection E as <- <- <-. eexists. split; [reflexivity|]. split; [exact B|apply Set_].
      - destruct (l_thr s a); try discriminate E. destruct (luse_ok op g u); [|discriminate E].
        injection E as <- <- <-. eexists. split; [reflexivity|]. split; [exact B|apply Set_].
      - destruct (l_thr s a) as [|cc|[ob gd| |lo k]|gd] eqn:La; try discriminate E.
        + injection E as <- <- <-. eexists. split; [reflexivity|]. split; [exact B|apply Set_].
        + injection E as <- <- <-. eexists. split; [reflexivity|]. split; [exact B|apply Set_].
        + destruct (wlstep n i j w a lo) as [[b1 v]|] eqn:Ws; [|discriminate E]. injection E as <- <- <-.
          pose proof (next_lop _ _ _ _ _ a lo k Lk La) as N.
          destruct (wlstep_means n i j w (l_box s) a lo b1 v B) as (s1 & S1 & M1 & V1).
          { destruct lo; auto; exact I. }
          { exact Ws. }
          rewrite S1. eexists. split; [reflexivity|]. split; [exact M1|]. cbn [l_thr].
          assert (Kv : k v = k (b_val (l_box s))).
          { destruct lo; try (rewrite V1 by discriminate; reflexivity). apply N. }
          rewrite Kv. apply Set_.
      - destruct (l_thr s a) as [|cc|[ob gd| |[wr| |xx|] k]|gd] eqn:La; try discriminate E.
        + injection E as <- <- <-. eexists. split; [reflexivity|]. split; [exact B|apply Set_].
        + destruct ya; [|discriminate E]. injection E as <- <- <-. eexists. split; [reflexivity|]. split; [exact B|apply Set_]. }
    destruct Q as (s' & S1 & M1 & T1). rewrite S1. exists (FLock s'), h0, []. split; [reflexivity|]. split; [apply same_hist|].
    split; [reflexivity|]. split; [constructor|]. split; [exact M1|]. split; [exact T1|].
    rewrite Pm in S1, Wk.
    destruct (move_linked ya op keeps no_builder 0 ms (methods_lstd c f ty ya op ms T So M Wk) (methods_lazy c f ty ya op ms T So M)
      s y s' h0 lw Lk S1) as (w' & _ & L'). exists w'. exact L'.
  - intros (Ev & Th & K0 & Lg & Rc & (x0 & Ti)) H. clear Pc.
    destruct (wopen_step dflt user p n i w th x) as [[[w' th1] h0]|] eqn:E; [|discriminate H]. injection H as <- <- <-.
    assert (Ti0 := Ti). destruct Ti as (th2 & st & Eq & -> & Op). injection Eq as -> <-.
    assert (Q : exists th3, open_step dflt user p (p_value p) th' x = Some (p_value p, th3, h0) /\ (forall z, th1 z = th3 z) /\
      wn_value w' = (0, p_value p) /\ (forall a, In 0 (wn_knows w' a)) /\ (forall m, In (m, true) (wn_log w') -> m = 0) /\ wn_racy w' = false).
    { assert (Set_ : forall a t1, forall z, set_othr th a t1 z = set_othr th' a t1 z)
        by (intros a t1 z; unfold set_othr; destruct (Nat.eqb z a); auto).
      unfold wopen_step in E. rewrite Ev in E. cbn [snd] in E.
      destruct x as [a k m|a u|a|a|a b|a]; cbn [open_step] in E |- *; try discriminate E; rewrite Th in E.
      - destruct (th' a); try discriminate E. destruct (find_method k (p_methods p)) as [md|]; [|discriminate E].
        destruct (by_reference md); [|discriminate E]. injection E as <- <- <-. eexists. split; [reflexivity|]. auto.
      - pose proof (Op a) as Oa. destruct (th' a) as [|md m|md m|ob] eqn:Ta; try discriminate E.
        + injection E as <- <- <-. eexists. split; [reflexivity|]. auto.
        + destruct (load (wn_knows w a) [(0, p_value p)] i) as [z|] eqn:L; [|discriminate E].
          destruct (load_known (wn_knows w a) [] (0, p_value p) i z (K0 a) L) as [-> _]. cbn [snd] in E.
          inversion Oa as [| |k md' m' F By E1 E2|]; subst.
          destruct (open_answers c f no_builder dflt user ty _ p o Sk T So M Wk Pf Rp k md m F By) as (an & Oc & _). rewrite Oc in E |- *.
          injection E as <- <- <-. eexists. split; [reflexivity|]. split; [apply Set_|]. split; [reflexivity|].
          split; [intros b; cbn; unfold WeakSyncModel.updk; destruct (Nat.eqb b a); [right|]; apply K0|].
          split; [intros d [D|D]; [discriminate D|apply Lg, D]|]. cbn. rewrite Rc. cbn.
          apply (no_races _ _ [0]); [intros d [<-|[]]; apply K0|intros d D; left; symmetry; apply Lg, D|discriminate].
        + injection E as <- <- <-. eexists. split; [reflexivity|]. auto.
      - destruct (th' a) as [|md m|md m|ob] eqn:Ta; try discriminate E.
        injection E as <- <- <-. eexists. split; [reflexivity|]. auto. }
    destruct Q as (th3 & S1 & T3 & E3 & K3 & L3 & R3). rewrite S1. exists (FOpen (p_value p) th3), h0, []. split; [reflexivity|].
    split; [apply same_hist|]. split; [reflexivity|]. split; [constructor|]. split; [exact E3|]. split; [exact T3|]. split; [exact K3|].
    split; [exact L3|]. split; [exact R3|].
    assert (Ps1 : part_step dflt user p (FOpen (p_value p) th') x = Some (FOpen (p_value p) th3, h0, [])) by (unfold part_step; rewrite Ps, S1; reflexivity).
    subst ms. destruct (open_sim c f no_builder dflt user ty _ p o Sk T So M Wk Ps Pf eq_refl Rp _ _ _ _ _ _ Ti0 Ps1) as (w1 & _ & Ti1).
    exists w1. exact Ti1.
Qed.
Lemma fmeans_can n g s x : fmeans g s -> part_step dflt user p s x <> None -> exists i j, wpart_step dflt user p n i j g x <> None.
Proof.
  destruct (part_facts c f o p Po) as (ty & ms & T & M & So & Rp & Pm & Pf & Pc).
  unfold fmeans, wpart_step, part_step.
  destruct (p_store p) as [[|]|ya op|] eqn:Ps, g as [w|w|w th|w th], s as [s|s|s|v th']; try (intros []; fail).
  - intros [B Th] H.
    destruct (mstep_can _ _ wasync_box async_box WeakAsyncProofs.means (p_methods p) true true wasync_can
      (mk_mstate (async_at n (m_box w)) (m_thr w)) s x (conj (async_at_means n _ _ B) Th)) as (i & j & C).
    { destruct (mstep _ async_box (p_methods p) true true s x) as [[[? ?] ?]|]; congruence. }
    exists i, j. destruct (mstep _ (wasync_box i j) _ _ _ _ x) as [[[? ?] ?]|]; congruence.
  - intros [B Th] H.
    destruct (mstep_can _ _ wsync_box sync_box WeakSyncProofs.means (p_methods p) false true wsync_can
      (mk_mstate (sync_at n (m_box w)) (m_thr w)) s x (conj (sync_at_means n _ _ B) Th)) as (i & j & C).
    { destruct (mstep _ sync_box (p_methods p) false true s x) as [[[? ?] ?]|]; congruence. }
    exists i, j. destruct (mstep _ (wsync_box i j) _ _ _ _ x) as [[[? ?] ?]|]; congruence.
  - intros (B & Th & _) H. destruct (as_lact x) as [y|]; [|congruence].
    assert (H' : lmove ya op (p_methods p) s y <> None) by (destruct (lmove ya op (p_methods p) s y) as [[? ?]|]; congruence). clear H.
    enough (Q : exists i j, wlmove ya op (p_methods p) n i j w th y <> None).
    { destruct Q as (i & j & Q). exists i, j. destruct (wlmove _ _ _ _ _ _ _ _ _) as [[[? ?] ?]|]; congruence. }
    destruct y as [a k m|a u|a|a]; unfold wlmove; cbn [lmove l_thr l_box] in H' |- *; rewrite Th.
    + exists 0, 0. destruct (l_thr s a); try congruence. destruct (find_method k (p_methods p)); congruence.
    + exists 0, 0. destruct (l_thr s a); try congruence. destruct (luse_ok op g u); congruence.
    + destruct (l_thr s a) as [|cc|[ob gd| |lo k]|gd]; try congruence; try (exists 0, 0; discriminate).
      destruct (wlstep_can n w (l_box s) a lo B) as (i & j & C); [destruct (lstep (l_box s) a lo); congruence|].
      exists i, j. destruct (wlstep n i j w a lo) as [[? ?]|]; congruence.
    + exists 0, 0. destruct (l_thr s a) as [|cc|[ob gd| |[wr| |xx|] k]|gd]; try congruence. destruct ya; congruence.
  - intros (Ev & Th & K0 & Lg & Rc & (x0 & Ti)) H.
    assert (H' : open_step dflt user p v th' x <> None) by (destruct (open_step dflt user p v th' x) as [[[? ?] ?]|]; congruence). clear H.
    exists 0, 0. enough (Q : wopen_step dflt user p n 0 w th x <> None) by (destruct (wopen_step _ _ _ _ _ _ _ x) as [[[? ?] ?]|]; congruence).
    unfold wopen_step. rewrite Ev. cbn [snd].
    destruct x as [a k m|a u|a|a|a b|a]; cbn [open_step] in *; try congruence; rewrite Th.
    + destruct (th' a); try congruence. destruct (find_method k (p_methods p)) as [md|]; [|congruence]. destruct (by_reference md); congruence.
    + destruct (th' a) as [|md m|md m|ob]; try congruence; try discriminate. cbn [load some_known skipn existsb nth_error snd].
      destruct (open_call dflt user p md m v) as [[? ?]|]; congruence.
    + destruct (th' a); congruence.
Qed.
End Field.
