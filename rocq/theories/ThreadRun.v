(** Schedules of emitted methods over a container that is the cell with guards. *)
From Coq Require Import List Bool String Arith Lia.
From Verif Require Import ProxyTypes ArgsModel AtomicCell GuardCell GuardFacts RustAst FieldSpec FieldRun FieldStruct ThreadSpec
  ThreadModel ThreadScripts ThreadSim.
Import ListNotations.

Section Run.
Variables solo canc fl keeps : bool.
Variable bld : nat -> outcome nat nat.
Variable dflt : nat.
Notation v := (mk_view (Lazy fl) (if solo then Solo else Blocking) keeps).
Notation std := (std fl keeps).
Notation gstep := (gstep solo canc bld).
Notation gruns := (gruns solo canc bld).
Notation wstep := (wstep bld dflt v canc).
Notation wruns := (wruns bld dflt v canc).
Notation tie := (tie solo canc fl keeps).
Notation tied := (tied solo canc fl keeps).

Lemma wruns_app w1 t1 w2 t2 w3 : wruns w1 t1 w2 -> wruns w2 t2 w3 -> wruns w1 (t1 ++ t2) w3.
Proof. induction 1 as [|w ta wa tb wb H1 H2 IH]; intros H; cbn; auto. rewrite <- app_assoc. econstructor; eauto. Qed.

Lemma hold_of_some g : hold_of g <> HNone.
Proof. unfold hold_of. destruct (gd_raw g), (gd_write g); discriminate. Qed.
(** The steps of the cell with guards that nobody sees. *)
Lemma silent c x th cell ws c' x' : tie c x th cell ws -> gstep (c, x) [] (c', x') ->
  exists cell' ws', wruns (cell, ws) [] (cell', ws') /\ tie c' x' th cell' ws'.
Proof.
  intros T H. inversion H as [ |c0 x0 a h o c1 h' r Xa Ef E1 E2| |c0 x0 a o Cc Xa Aw E1 E2]; [subst c0 x0 c1 x'|subst c0 x0 c' x'].
  - eapply effective; eauto.
  - pose proof (T_at _ _ _ _ _ _ _ _ _ T a) as A. rewrite Xa in A. exists cell, ws. split; [constructor|].
    constructor; try apply T.
    + intros b. unfold gset. destruct (Nat.eqb_spec b a) as [->|N]; [|apply T].
      inversion A; try congruence; try (exfalso; eapply hold_of_some; eassumption).
      apply t_cancelled. assumption.
    + intros b. rewrite (T_rd _ _ _ _ _ _ _ _ _ T). unfold gset. destruct (Nat.eqb_spec b a) as [->|N]; [|tauto].
      unfold sR. rewrite Xa. cbn. tauto.
    + intros b. rewrite (T_wr _ _ _ _ _ _ _ _ _ T). unfold gset. destruct (Nat.eqb_spec b a) as [->|N]; [|tauto].
      unfold sW. rewrite Xa. cbn. tauto.
Qed.
Lemma silents w t w' : gruns w t w' -> t = [] -> forall th cell ws, tie (fst w) (snd w) th cell ws ->
  exists cell' ws', wruns (cell, ws) [] (cell', ws') /\ tie (fst w') (snd w') th cell' ws'.
Proof.
  induction 1 as [w|w t1 w1 t2 w2 G1 G2 IH]; intros E th cell ws T.
  - exists cell, ws. split; [constructor|exact T].
  - apply app_eq_nil in E as [-> ->]. destruct w as [c x], w1 as [c1 x1].
    destruct (silent _ _ _ _ _ _ _ T G1) as (cell1 & ws1 & W1 & T1).
    destruct (IH eq_refl _ _ _ T1) as (cell2 & ws2 & W2 & T2).
    exists cell2, ws2. split; [exact (wruns_app _ _ _ _ _ W1 W2)|exact T2].
Qed.
Lemma gruns_one w t w' : gruns w t w' -> forall e, t = [e] ->
  exists w1 w2, gruns w [] w1 /\ gstep w1 [e] w2 /\ gruns w2 [] w'.
Proof.
  induction 1 as [w|w t1 w1 t2 w2 G1 G2 IH]; intros e E; [discriminate E|].
  destruct t1 as [|e1 t1].
  - cbn in E. destruct (IH e E) as (wa & wb & A & B & C). exists wa, wb. split; [|auto].
    change (@nil (event nat nat)) with (@nil (event nat nat) ++ [])%list. econstructor; eauto.
  - cbn in E. injection E as -> E. apply app_eq_nil in E as [-> ->]. exists w, w1. split; [constructor|auto].
Qed.
Lemma set_same f a t : set_thr f a t a = t.
Proof. unfold set_thr. now rewrite Nat.eqb_refl. Qed.

(** The code of a method makes a call on the container. *)
Lemma calling c x th cell ws c' x' a o k : tie c x th cell ws -> gstep (c, x) [EvCall a o] (c', x') -> th a = Doing (Op o k) ->
  tie c' x' (set_thr th a (Waiting k)) cell ws.
Proof.
  intros T H Ta. inversion H as [? ? ? h ? Xa Cl| | |]; subst.
  pose proof (T_at _ _ _ _ _ _ _ _ _ T a) as A. rewrite Xa, Ta in A. constructor; try apply T.
  - intros b. unfold gset, set_thr. destruct (Nat.eqb_spec b a) as [->|N]; [|apply T].
    inversion A as [ | | |kk n Mo Et Eo Ew| | | | | |u Vu Et Eo Ew| | |hh oo Hh Et Eo Ew| | |n Et Eo Ew| | |g u oo f Pr Us Es Et Eo Ew| ];
      subst.
    + eapply t_called. eassumption.
    + eapply t_cp3. eassumption.
    + apply t_dr2. assumption.
    + apply t_st3.
    + eapply t_use2; eassumption.
  - intros b. rewrite (T_rd _ _ _ _ _ _ _ _ _ T). unfold gset. destruct (Nat.eqb_spec b a) as [->|N]; [|tauto].
    unfold sR. rewrite Xa. cbn. tauto.
  - intros b. rewrite (T_wr _ _ _ _ _ _ _ _ _ T). unfold gset. destruct (Nat.eqb_spec b a) as [->|N]; [|tauto].
    unfold sW. rewrite Xa. cbn. tauto.
Qed.
(** A call on the container returns. *)
Lemma returning c x th cell ws c' x' a r k : tie c x th cell ws -> gstep (c, x) [EvRet a r] (c', x') -> th a = Waiting k ->
  exists ws', wruns (cell, ws) (snd (resumed a k [EvRet a r])) (cell, ws') /\
    tie c' x' (set_thr th a (fst (resumed a k [EvRet a r]))) cell ws'.
Proof.
  intros T H Ta. inversion H as [ | |? ? ? h ? Xa| ]; subst.
  pose proof (T_at _ _ _ _ _ _ _ _ _ T a) as A. rewrite Xa, Ta in A. unfold resumed. cbn [answer_for]. rewrite Nat.eqb_refl.
  assert (Rd : forall b, In b (g_rd c') <-> sR (gset x a (GIdle h) b)).
  { intros b. rewrite (T_rd _ _ _ _ _ _ _ _ _ T). unfold gset. destruct (Nat.eqb_spec b a) as [->|N]; [|tauto].
    unfold sR. rewrite Xa. cbn. tauto. }
  assert (Wr : forall b, g_wr c' = Some b <-> sW (gset x a (GIdle h) b)).
  { intros b. rewrite (T_wr _ _ _ _ _ _ _ _ _ T). unfold gset. destruct (Nat.eqb_spec b a) as [->|N]; [|tauto].
    unfold sW. rewrite Xa. cbn. tauto. }
  assert (go : r <> RCancelled -> tied (g_val c') (Doing (k r)) (GIdle h) (ws a) ->
    exists ws', wruns (cell, ws) (snd match r with RCancelled => (Idle, [HGone a]) | _ => (Doing (k r), []) end) (cell, ws') /\
      tie c' (gset x a (GIdle h)) (set_thr th a (fst match r with RCancelled => (Idle, [HGone a]) | _ => (Doing (k r), []) end)) cell ws').
  { intros Nr Tn. exists ws. replace (match r with RCancelled => (Idle, [HGone a]) | _ => (Doing (k r), []) end) with (Doing (k r), @nil hist)
      by (destruct r; congruence). split; [constructor|]. constructor; auto; try apply T.
    intros b. unfold gset, set_thr. destruct (Nat.eqb_spec b a) as [->|N]; [exact Tn|apply T]. }
  inversion A as [ | | | | |kk n f Cc Et Eo Ew|f rr oo g Nr Fr Pr Et Eo Ew| |u Vu Et Eo Ew| | |u Et Eo Ew| | |n Et Eo Ew| | |oo Et Eo Ew| | ];
    try subst f.
  - (* abandoned *) subst h r.
    exists (wset ws a WFree). split; [cbn; eapply w_one, w_gone; [exact Cc|symmetry; exact Ew]|].
    cbn [fst]. constructor; auto; try apply T.
    + intros b. unfold gset, set_thr, wset. destruct (Nat.eqb_spec b a) as [->|N]; [apply t_idle|apply T].
    + apply (counts_same cell); [apply T|rewrite <- Ew; reflexivity|reflexivity|reflexivity].
  - subst h. apply go; [exact Nr|]. rewrite <- Ew, Fr. apply t_end. assumption.
  - subst h r k. apply go; [discriminate|]. rewrite <- Ew. cbn. apply t_cp2. assumption.
  - subst h r k. apply go; [discriminate|]. rewrite <- Ew. cbn. apply t_dr1. discriminate.
  - subst h r k. apply go; [discriminate|]. rewrite <- Ew. cbn. apply t_st2.
  - subst h r k. apply go; [discriminate|]. rewrite <- Ew. unfold on_stored. rewrite finish_opt. cbn. apply t_dr1. discriminate.
Qed.

(** ** Over a container *)
Variable St : Type.
Variable bstep : St -> bact -> option (St * list (event nat nat)).
Variable ms : list mdecl.
Variables asy alive : bool.
Hypothesis methods : forall m n, In m ms -> modelled (m_kind m) = true /\ script asy alive m n = std (m_kind m) n.
Hypothesis lazily : forall m, In m ms -> m_async m = true -> canc = true.
Variable rel : nat -> St -> gcell nat -> (aid -> gstat nat nat) -> Prop.
Hypothesis sim : forall n s c x y s' t, rel n s c x -> bstep s y = Some (s', t) ->
  (forall i b, nth_error (ends t) i = Some b -> bld (n + i) = b) ->
  exists c' x', gruns (c, x) (visible t) (c', x') /\ rel (n + List.length (ends t)) s' c' x'.
Definition actor (y : bact) : aid := match y with BCall a _ | BStep a | BBuilt a _ | BCancel a => a end.
Hypothesis told : forall s y s' t, bstep s y = Some (s', t) ->
  match y with
  | BCall a o => t = [EvCall a o]
  | _ => (visible t = [] /\ answer_for (actor y) t = None) \/ exists r, t = [EvRet (actor y) r]
  end.
Notation mstep := (mstep St bstep ms asy alive).
Notation mrun := (mrun St bstep ms asy alive).

Definition linked (n : nat) (s : mstate St) (w : cellst * (aid -> wstat)) : Prop :=
  exists c x, rel n (m_box s) c x /\ tie c x (m_thr s) (fst w) (snd w).

(** Steps of the code that do not touch the container. *)
Lemma outer c x th cell ws a t w' : tie c x th cell ws -> tied (g_val c) t (x a) w' -> kept_by w' = kept_by (ws a) ->
  tie c x (set_thr th a t) cell (wset ws a w').
Proof.
  intros T Tn K. constructor; try apply T.
  - intros b. unfold set_thr, wset. destruct (Nat.eqb_spec b a) as [->|N]; [exact Tn|apply T].
  - apply (counts_same cell); [apply T|exact K|reflexivity|reflexivity].
Qed.
Lemma outer_same c x th cell ws a t : tie c x th cell ws -> tied (g_val c) t (x a) (ws a) ->
  tie c x (set_thr th a t) cell ws.
Proof.
  intros T Tn. constructor; try apply T.
  intros b. unfold set_thr. destruct (Nat.eqb_spec b a) as [->|N]; [exact Tn|apply T].
Qed.
Lemma use_ok_usable g u : proper g -> use_ok g u = true -> usable v g u = true.
Proof.
  unfold proper, usable, use_ok, assignable. destruct g as [[] []], u as [|[y|]|]; cbn; intros Pr U; try reflexivity; try discriminate U.
  discriminate (Pr eq_refl).
Qed.
Lemma use_cases g u : use_ok g u = true ->
  (exists o f, use_script g u = Op o f) \/ (u = Look /\ gd_raw g = true).
Proof.
  unfold use_ok, use_script. destruct u as [|[y|]|]; intros H; destruct (gd_raw g); eauto; discriminate H.
Qed.

Lemma method_std k m n : find_method k ms = Some m -> modelled k = true /\ script asy alive m n = std k n.
Proof. intros F. apply find_some in F as [Hin E]. apply hkind_eqb_eq in E. subst k. apply methods, Hin. Qed.

Lemma lift n s w y b t a : linked n s w -> bstep (m_box s) y = Some (b, t) ->
  (forall i b, nth_error (ends t) i = Some b -> bld (n + i) = b) ->
  forall k, m_thr s a = Waiting k -> actor y = a ->
  ((visible t = [] /\ answer_for a t = None) \/ exists r, t = [EvRet a r]) ->
  exists w', wruns w (snd (resumed a k t)) w' /\
    linked (n + List.length (ends t)) (mk_mstate b (set_thr (m_thr s) a (fst (resumed a k t)))) w'.
Proof.
  intros (c & x & R & T) B O k Tk Ac Cs. destruct w as [cell ws]; cbn [fst snd] in T.
  destruct (sim _ _ _ _ _ _ _ R B O) as (c' & x' & G & R').
  destruct Cs as [[Vi An]|[r ->]].
  - rewrite Vi in G. destruct (silents _ _ _ G eq_refl _ _ _ T) as (cell' & ws' & W & T').
    exists (cell', ws'). unfold resumed. rewrite An. cbn [snd fst]. split; [exact W|].
    exists c', x'. split; [exact R'|]. cbn. apply outer_same; [exact T'|]. rewrite <- Tk. apply T'.
  - cbn [visible filter] in G. destruct (gruns_one _ _ _ G _ eq_refl) as ([c1 x1] & [c2 x2] & G1 & G2 & G3).
    destruct (silents _ _ _ G1 eq_refl _ _ _ T) as (cell1 & ws1 & W1 & T1). cbn [fst snd] in T1.
    destruct (returning _ _ _ _ _ _ _ _ _ _ T1 G2 Tk) as (ws2 & W2 & T2).
    destruct (silents _ _ _ G3 eq_refl _ _ _ T2) as (cell3 & ws3 & W3 & T3). cbn [fst snd] in T3.
    exists (cell3, ws3). split.
    + pose proof (wruns_app _ _ _ _ _ W1 (wruns_app _ _ _ _ _ W2 W3)) as W. cbn [app] in W. rewrite app_nil_r in W. exact W.
    + exists c', x'. split; [exact R'|exact T3].
Qed.

Lemma mstep_linked n s w y s' h t : linked n s w -> mstep s y = Some (s', h, t) ->
  (forall i b, nth_error (ends t) i = Some b -> bld (n + i) = b) ->
  exists w', wruns w h w' /\ linked (n + List.length (ends t)) s' w'.
Proof.
  intros L H O. destruct y as [a k m|a u|a|a|a b|a]; cbn in H.
  - destruct (m_thr s a) eqn:Ta; try discriminate H. destruct (find_method k ms) as [d|] eqn:F; [|discriminate H].
    injection H as <- <- <-. destruct (method_std _ _ m F) as [Mo ->]. destruct L as (c & x & R & T). destruct w as [cell ws]; cbn in T.
    pose proof (T_at _ _ _ _ _ _ _ _ _ T a) as A. rewrite Ta in A. inversion A as [Et Eo Ew| | | | | | | | | | | | | | | | | | | ].
    exists (cell, wset ws a (WAsked k m)). split; [eapply w_one, w_call; auto|]. cbn. rewrite Nat.add_0_r.
    exists c, x. split; [exact R|]. cbn. apply outer; [exact T| |rewrite <- Ew; reflexivity]. rewrite <- Eo.
    destruct (m_async d) eqn:Ma; [|apply t_start; exact Mo]. apply t_fresh; [|exact Mo].
    apply find_some in F as [Hin _]. exact (lazily _ Hin Ma).
  - destruct (m_thr s a) as [| | | |g] eqn:Ta; try discriminate H. destruct (use_ok g u) eqn:U; [|discriminate H].
    injection H as <- <- <-. destruct L as (c & x & R & T). destruct w as [cell ws]; cbn in T.
    pose proof (T_at _ _ _ _ _ _ _ _ _ T a) as A. rewrite Ta in A. inversion A as [ |g0 Pr Et Eo Ew| | | | | | | | | | | | | | | | | | ]; subst g0.
    cbn. rewrite Nat.add_0_r.
    destruct (use_cases g u U) as [(o & f & Es)|[-> Rg]].
    + exists (cell, wset ws a (WUsing g u)). split; [eapply w_one, w_use; [symmetry; exact Ew|apply use_ok_usable; auto]|].
      exists c, x. split; [exact R|]. cbn. apply outer; [exact T| |rewrite <- Ew; reflexivity]. rewrite <- Eo, Es.
      eapply t_use1; eauto. apply use_ok_usable; auto.
    + eexists. split.
      { change [HUse a Look] with ([HUse a Look] ++ ([] ++ []))%list. eapply wr_step; [eapply w_use; [symmetry; exact Ew|reflexivity]|].
        eapply wr_step; [eapply w_look; rewrite wset_same; reflexivity|constructor]. }
      exists c, x. split; [exact R|]. cbn. unfold shown. rewrite Rg.
      set (ws1 := wset ws a (WUsing g Look)).
      unfold ws1.
      constructor; try apply T.
      * intros b. unfold set_thr, wset. destruct (Nat.eqb_spec b a) as [->|N]; [|apply T]. rewrite <- Eo.
        change (hold_of g) with (hold_opt (Some g)). apply t_end. exact Pr.
      * apply (counts_same cell); [|rewrite wset_same; reflexivity|reflexivity|reflexivity].
        apply (counts_same cell); [apply T|rewrite <- Ew; reflexivity|reflexivity|reflexivity].
  - destruct (m_thr s a) as [|cc|[ob og| |o k]| |] eqn:Ta; try discriminate H.
    + injection H as <- <- <-. destruct L as (c & x & R & T). destruct w as [cell ws]; cbn in T.
      pose proof (T_at _ _ _ _ _ _ _ _ _ T a) as A. rewrite Ta in A. inversion A as [ | |kk n0 Cn Mo Et Eo Ew| | | | | | | | | | | | | | | | | ].
      exists (cell, ws). split; [constructor|]. cbn. rewrite Nat.add_0_r. exists c, x. split; [exact R|]. cbn.
      apply outer_same; [exact T|]. rewrite <- Eo, <- Ew. apply t_start, Mo.
    + injection H as <- <- <-. destruct L as (c & x & R & T). destruct w as [cell ws]; cbn in T.
      pose proof (T_at _ _ _ _ _ _ _ _ _ T a) as A. rewrite Ta in A.
      assert (B : proper_opt og /\ x a = GIdle (hold_opt og) /\ ws a = WDone ob og).
      { inversion A as [ | | |kk n0 Mo Et Eo Ew| | | |o0 g0 Pr E1 Eo Ew| | | | | | | | | | | | ].
        - destruct kk; discriminate Et || discriminate Mo.
        - auto. }
      destruct B as (Pr & Xa & Wa).
      exists (cell, wset ws a (after og)). split; [eapply w_one, w_ret, Wa|]. cbn. rewrite Nat.add_0_r.
      exists c, x. split; [exact R|]. cbn. apply outer; [exact T| |rewrite Wa; destruct og; reflexivity]. rewrite Xa.
      destruct og as [g|]; cbn; [apply t_keep; exact Pr|apply t_idle].
    + destruct (bstep (m_box s) (BCall a o)) as [[b t0]|] eqn:B; [|discriminate H]. injection H as <- <- <-.
      destruct L as (c & x & R & T). destruct w as [cell ws]; cbn in T.
      pose proof (told _ _ _ _ B) as Te. cbn in Te. subst t0.
      destruct (sim _ _ _ _ _ _ _ R B O) as (c' & x' & G & R'). cbn [visible filter] in G.
      destruct (gruns_one _ _ _ G _ eq_refl) as ([c1 x1] & [c2 x2] & G1 & G2 & G3).
      destruct (silents _ _ _ G1 eq_refl _ _ _ T) as (cell1 & ws1 & W1 & T1). cbn [fst snd] in T1.
      pose proof (calling _ _ _ _ _ _ _ _ _ _ T1 G2 Ta) as T2.
      destruct (silents _ _ _ G3 eq_refl _ _ _ T2) as (cell3 & ws3 & W3 & T3). cbn [fst snd] in T3.
      exists (cell3, ws3). split; [exact (wruns_app _ _ _ _ _ W1 W3)|].
      exists c', x'. split; [exact R'|exact T3].
  - destruct (m_thr s a) as [| | |k|] eqn:Ta; try discriminate H.
    destruct (bstep (m_box s) (BStep a)) as [[b t0]|] eqn:B; [|discriminate H]. injection H as <- <- <-.
    eapply lift; eauto. exact (told _ _ _ _ B).
  - destruct (m_thr s a) as [| | |k|] eqn:Ta; try discriminate H.
    destruct (bstep (m_box s) (BBuilt a b)) as [[b0 t0]|] eqn:B; [|discriminate H]. injection H as <- <- <-.
    eapply lift; eauto. exact (told _ _ _ _ B).
  - destruct (m_thr s a) as [|cc| |k|] eqn:Ta; try discriminate H.
    + injection H as <- <- <-. destruct L as (c & x & R & T). destruct w as [cell ws]; cbn in T.
      pose proof (T_at _ _ _ _ _ _ _ _ _ T a) as A. rewrite Ta in A. inversion A as [ | |kk n0 Cn Mo Et Eo Ew| | | | | | | | | | | | | | | | | ].
      exists (cell, wset ws a WFree). split; [eapply w_one, w_gone; [exact Cn|symmetry; exact Ew]|]. cbn. rewrite Nat.add_0_r.
      exists c, x. split; [exact R|]. cbn. apply outer; [exact T| |rewrite <- Ew; reflexivity]. rewrite <- Eo. apply t_idle.
    + destruct (bstep (m_box s) (BCancel a)) as [[b t0]|] eqn:B; [|discriminate H]. injection H as <- <- <-.
      eapply lift; eauto. exact (told _ _ _ _ B).
Qed.

Lemma ends_app (t1 t2 : list (event nat nat)) : ends (t1 ++ t2) = (ends t1 ++ ends t2)%list.
Proof. apply flat_map_app. Qed.
Lemma mrun_linked : forall l n s w s' h t, linked n s w -> mrun s l = Some (s', h, t) ->
  (forall i b, nth_error (ends t) i = Some b -> bld (n + i) = b) ->
  exists w', wruns w h w' /\ linked (n + List.length (ends t)) s' w'.
Proof.
  induction l as [|y l IH]; intros n s w s' h t L H O; cbn in H.
  - injection H as <- <- <-. cbn. rewrite Nat.add_0_r. exists w. split; [constructor|exact L].
  - destruct (mstep s y) as [[[s1 h1] t1]|] eqn:M; [|discriminate H].
    destruct (mrun s1 l) as [[[s2 h2] t2]|] eqn:E; [|discriminate H]. injection H as <- <- <-.
    rewrite ends_app in *.
    destruct (mstep_linked _ _ _ _ _ _ _ L M) as (w1 & W1 & L1).
    { intros i b Hi. apply O. rewrite nth_error_app1; [exact Hi|]. apply nth_error_Some. congruence. }
    destruct (IH _ _ _ _ _ _ L1 E) as (w2 & W2 & L2).
    { intros i b Hi. rewrite <- Nat.add_assoc. apply O. rewrite nth_error_app2 by lia.
      replace (List.length (ends t1) + i - List.length (ends t1)) with i by lia. exact Hi. }
    exists w2. split; [exact (wruns_app _ _ _ _ _ W1 W2)|]. rewrite app_length, Nat.add_assoc. exact L2.
Qed.

(** No activity is ever stuck in code that cannot go on. *)
Lemma linked_sane n s w a : linked n s w -> m_thr s a <> Doing Wrong.
Proof.
  intros (c & x & _ & T) E. pose proof (T_at _ _ _ _ _ _ _ _ _ T a) as A. rewrite E in A.
  inversion A as [ | | |kk n0 Mo Et Eo Ew| | | | | | | | | | | | | | | | ]. destruct kk; discriminate Et || discriminate Mo.
Qed.
Lemma tie_init c o : g_val c = o -> g_runs c = 0 -> g_rd c = [] -> g_wr c = None ->
  tie c (fun _ => GIdle HNone) (fun _ => Idle) (mk_cellst o 0 false 0) (fun _ => WFree).
Proof.
  intros V Ru Rd Wr. constructor; cbn; auto.
  - intros a. apply t_idle.
  - intros b. rewrite Rd. unfold sR. cbn. split; [tauto|discriminate].
  - intros b. rewrite Wr. unfold sW. cbn. split; [discriminate|]. intros [H|H]; discriminate H.
  - constructor; cbn.
    + exists []. repeat split; auto; [constructor|intros []|intros (g & E & _); discriminate E].
    + split; [discriminate|]. intros (b & g & E & _). discriminate E.
Qed.

(** Code that runs can go on. *)
Hypothesis ready : forall n s c x a h o, rel n s c x -> x a = GIdle h -> callable h o = true -> bstep s (BCall a o) <> None.
Lemma start_callable k n o f : std k n = Op o f -> callable HNone o = true.
Proof. unfold ThreadScripts.std, r_op. destruct k, fl; cbn; intros H; try discriminate H; injection H as <- _; reflexivity. Qed.
Lemma use_callable g u o f : proper g -> usable v g u = true -> use_script g u = Op o f -> callable (hold_of g) o = true.
Proof.
  unfold proper, usable, use_script, assignable, hold_of. destruct g as [[] []], u as [|[y|]|]; cbn; intros Pr U H;
    try discriminate H; try discriminate U; try discriminate (Pr eq_refl); injection H as <- _; reflexivity.
Qed.
Lemma doing_goes n s w a c0 : linked n s w -> m_thr s a = Doing c0 -> mstep s (MGo a) <> None.
Proof.
  intros L Ta. pose proof (linked_sane _ _ _ a L) as Sa. destruct L as (c & x & R & T). cbn. rewrite Ta in *.
  destruct c0 as [ob og| |o k]; try discriminate; [congruence|].
  assert (Q : exists h, x a = GIdle h /\ callable h o = true).
  { pose proof (T_at _ _ _ _ _ _ _ _ _ T a) as A. rewrite Ta in A.
    inversion A as [ | | |kk n0 Mo Et Eo Ew| | | | | |u Vu Et Eo Ew| | |hh oo Hh Et Eo Ew| | |n0 Et Eo Ew| | |g u oo f Pr Us Es Et Eo Ew| ].
    - exists HNone. split; [reflexivity|]. eapply start_callable; eassumption.
    - exists HR. auto.
    - exists hh. split; [auto|]. destruct hh; [congruence|reflexivity..].
    - exists HW. auto.
    - exists (hold_of g). split; [auto|]. eapply use_callable; eassumption. }
  destruct Q as (h & Xa & Cl). pose proof (ready _ _ _ _ _ _ _ R Xa Cl) as B.
  destruct (bstep (m_box s) (BCall a o)) as [[b t]|]; [discriminate|congruence].
Qed.
(** A call in progress: something can move or somebody keeps a guard. *)
Hypothesis moves : forall n s c x a, rel n s c x -> (forall h, x a <> GIdle h) ->
  (exists b, (forall h, x b <> GIdle h) /\ bstep s (BStep b) <> None) \/
  (exists b, (forall h, x b <> GIdle h) /\ forall out, bstep s (BBuilt b out) <> None) \/
  (exists b h, x b = GIdle h /\ h <> HNone).
Lemma waits val t g w : tied val t g w -> (forall h, g <> GIdle h) -> exists k, t = Waiting k.
Proof. intros H N. destruct H; try (exfalso; eapply N; reflexivity); eauto. Qed.
Lemma waiting val k g w : tied val (Waiting k) g w -> forall h, g <> GIdle h.
Proof. intros H h E. subst g. inversion H. Qed.
Lemma goes n s w a : linked n s w -> m_thr s a <> Idle ->
  (exists b, mstep s (MGo b) <> None \/ mstep s (MStep b) <> None) \/
  (exists b, forall out, mstep s (MBuilt b out) <> None) \/
  (exists b g, m_thr s b = Keeping g).
Proof.
  intros L Na. destruct (m_thr s a) as [|c0|c0|k|g] eqn:Ta; [congruence|..].
  - left. exists a. left. cbn. rewrite Ta. discriminate.
  - left. exists a. left. eapply doing_goes; eassumption.
  - pose proof L as (c & x & R & T). pose proof (T_at _ _ _ _ _ _ _ _ _ T) as A.
    pose proof (A a) as Aa. rewrite Ta in Aa.
    destruct (moves _ _ _ _ a R (waiting _ _ _ _ Aa)) as [(b & Nb & B)|[(b & Nb & B)|(b & h & Xb & Nh)]].
    + left. exists b. right. destruct (waits _ _ _ _ (A b) Nb) as [kb Tb]. cbn. rewrite Tb.
      destruct (bstep (m_box s) (BStep b)) as [[b0 t0]|]; [discriminate|congruence].
    + right. left. exists b. intros out. destruct (waits _ _ _ _ (A b) Nb) as [kb Tb]. cbn. rewrite Tb.
      specialize (B out). destruct (bstep (m_box s) (BBuilt b out)) as [[b0 t0]|]; [discriminate|congruence].
    + pose proof (A b) as Ab. rewrite Xb in Ab. destruct (m_thr s b) as [|cb|cb|kb|g] eqn:Tb.
      * inversion Ab; congruence.
      * inversion Ab; congruence.
      * left. exists b. left. eapply doing_goes; eassumption.
      * exfalso. exact (waiting _ _ _ _ Ab h eq_refl).
      * right. right. eauto.
  - right. right. eauto.
Qed.
Lemma mrun_snoc l y : forall s s1 h t, mrun s l = Some (s1, h, t) -> mstep s1 y <> None -> mrun s (l ++ [y]) <> None.
Proof.
  induction l as [|z l IH]; cbn; intros s s1 h t H N.
  - injection H as <- <- <-. destruct (mstep s y) as [[[s2 h2] t2]|]; [discriminate|congruence].
  - destruct (mstep s z) as [[[s2 h2] t2]|]; [|discriminate H].
    destruct (mrun s2 l) as [[[s3 h3] t3]|] eqn:E; [|discriminate H]. injection H as <- <- <-.
    pose proof (IH _ _ _ _ E N) as K. destruct (mrun s2 (l ++ [y])) as [[[s4 h4] t4]|]; [discriminate|congruence].
Qed.
End Run.
