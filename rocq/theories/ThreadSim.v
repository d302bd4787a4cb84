(** The methods of a lazy field, run by many activities over the cell with guards
    (GuardCell.v), are the cell of FieldSpec.v. *)
From Coq Require Import List Bool String Arith Lia.
From Verif Require Import ProxyTypes ArgsModel AtomicCell GuardCell GuardFacts RustAst FieldSpec ThreadSpec ThreadModel
  ThreadScripts.
Import ListNotations.

Definition hold_of (g : guard) : hold := if gd_raw g then HW else if gd_write g then HM else HR.
Definition hold_opt (g : option guard) : hold := match g with Some g => hold_of g | None => HNone end.
Definition proper (g : guard) : Prop := gd_raw g = true -> gd_write g = true.
Definition proper_opt (g : option guard) : Prop := match g with Some g => proper g | None => True end.
Definition kept_by (w : wstat) : option guard :=
  match w with WKeeps g | WUsing g _ => Some g | WDone _ og => og | _ => None end.
Definition wR (w : wstat) : Prop := exists g, kept_by w = Some g /\ gd_write g = false.
Definition wW (w : wstat) : Prop := exists g, kept_by w = Some g /\ gd_write g = true.

(** ** Counting the guards in the world *)
Record counts (cell : cellst) (ws : aid -> wstat) : Prop := {
  cn_R : exists L, NoDup L /\ (forall b, In b L <-> wR (ws b)) /\ List.length L = c_readers cell;
  cn_W : c_writer cell = true <-> exists b, wW (ws b)
}.
Lemma wset_same ws a w : wset ws a w a = w.
Proof. unfold wset. now rewrite Nat.eqb_refl. Qed.
Lemma wset_other ws a w b : b <> a -> wset ws a w b = ws b.
Proof. unfold wset. intros N. destruct (Nat.eqb_spec b a); congruence. Qed.
Lemma wR_kept w w' : kept_by w = kept_by w' -> (wR w <-> wR w').
Proof. unfold wR. intros ->. tauto. Qed.
Lemma wW_kept w w' : kept_by w = kept_by w' -> (wW w <-> wW w').
Proof. unfold wW. intros ->. tauto. Qed.

Lemma counts_same cell cell' ws a w' : counts cell ws -> kept_by w' = kept_by (ws a) ->
  c_readers cell' = c_readers cell -> c_writer cell' = c_writer cell -> counts cell' (wset ws a w').
Proof.
  intros [[L (ND & IL & Ln)] W] K R1 W1. constructor.
  - exists L. rewrite R1. repeat split; auto; intros H.
    + apply IL in H. destruct (Nat.eq_dec b a) as [->|N]; [rewrite wset_same; apply (wR_kept _ _ K); auto|rewrite wset_other; auto].
    + apply IL. destruct (Nat.eq_dec b a) as [->|N]; [rewrite wset_same in H; apply (wR_kept _ _ K); auto|rewrite wset_other in H; auto].
  - rewrite W1, W. split; intros [b H]; exists b.
    + destruct (Nat.eq_dec b a) as [->|N]; [rewrite wset_same; apply (wW_kept _ _ K); auto|rewrite wset_other; auto].
    + destruct (Nat.eq_dec b a) as [->|N]; [rewrite wset_same in H; apply (wW_kept _ _ K); auto|rewrite wset_other in H; auto].
Qed.
Lemma counts_gainR cell cell' ws a w' g : counts cell ws -> kept_by (ws a) = None -> kept_by w' = Some g -> gd_write g = false ->
  c_readers cell' = S (c_readers cell) -> c_writer cell' = c_writer cell -> counts cell' (wset ws a w').
Proof.
  intros [[L (ND & IL & Ln)] W] K K' G R1 W1. constructor.
  - exists (a :: L). rewrite R1, <- Ln. split; [|split; [|reflexivity]].
    + constructor; auto. rewrite IL. intros (g' & E & _). congruence.
    + intros b. cbn. destruct (Nat.eq_dec b a) as [->|N]; [rewrite wset_same|rewrite wset_other by auto].
      * split; [|auto]. intros _. exists g. auto.
      * rewrite IL. intuition congruence.
  - rewrite W1, W. split; intros [b (g' & E & H)]; exists b.
    + rewrite wset_other; [exists g'; auto|]. intros ->. congruence.
    + destruct (Nat.eq_dec b a) as [->|N]; [rewrite wset_same in E; congruence|rewrite wset_other in E by auto]. exists g'. auto.
Qed.
Lemma counts_gainW cell cell' ws a w' g : counts cell ws -> kept_by (ws a) = None -> kept_by w' = Some g -> gd_write g = true ->
  c_readers cell' = c_readers cell -> c_writer cell' = true -> counts cell' (wset ws a w').
Proof.
  intros [[L (ND & IL & Ln)] W] K K' G R1 W1. constructor.
  - exists L. rewrite R1. repeat split; auto; intros H.
    + apply IL in H. rewrite wset_other; auto. intros ->. destruct H as (g' & E & _). congruence.
    + apply IL. destruct (Nat.eq_dec b a) as [->|N]; [|rewrite wset_other in H; auto].
      rewrite wset_same in H. destruct H as (g' & E & F). congruence.
  - rewrite W1. split; auto. intros _. exists a. rewrite wset_same. exists g. auto.
Qed.
Lemma counts_loseR cell cell' ws a w' g : counts cell ws -> kept_by (ws a) = Some g -> gd_write g = false -> kept_by w' = None ->
  c_readers cell' = pred (c_readers cell) -> c_writer cell' = c_writer cell -> counts cell' (wset ws a w').
Proof.
  intros [[L (ND & IL & Ln)] W] K G K' R1 W1. constructor.
  - assert (Ia : In a L) by (apply IL; exists g; auto).
    apply in_split in Ia as (l1 & l2 & ->). exists (l1 ++ l2)%list.
    apply NoDup_remove in ND as [ND Na]. split; [exact ND|]. split.
    + intros b. destruct (Nat.eq_dec b a) as [->|N]; [rewrite wset_same|rewrite wset_other by auto].
      * split; [tauto|]. intros (g' & E & _). congruence.
      * rewrite <- IL, !in_app_iff. cbn. intuition congruence.
    + rewrite R1, <- Ln, !app_length. cbn. lia.
  - rewrite W1, W. split; intros [b (g' & E & H)]; exists b.
    + rewrite wset_other; [exists g'; auto|]. intros ->. congruence.
    + destruct (Nat.eq_dec b a) as [->|N]; [rewrite wset_same in E; congruence|rewrite wset_other in E by auto]. exists g'. auto.
Qed.
Lemma counts_loseW cell cell' ws a w' g : counts cell ws -> kept_by (ws a) = Some g -> gd_write g = true -> kept_by w' = None ->
  (forall b, wW (ws b) -> b = a) ->
  c_readers cell' = c_readers cell -> c_writer cell' = false -> counts cell' (wset ws a w').
Proof.
  intros [[L (ND & IL & Ln)] W] K G K' U R1 W1. constructor.
  - exists L. rewrite R1. repeat split; auto; intros H.
    + apply IL in H. rewrite wset_other; auto. intros ->. destruct H as (g' & E & F). congruence.
    + apply IL. destruct (Nat.eq_dec b a) as [->|N]; [|rewrite wset_other in H; auto].
      rewrite wset_same in H. destruct H as (g' & E & F). congruence.
  - rewrite W1. split; [discriminate|]. intros [b H]. destruct (Nat.eq_dec b a) as [->|N].
    + rewrite wset_same in H. destruct H as (g' & E & _). congruence.
    + rewrite wset_other in H by auto. apply U in H. congruence.
Qed.

Section Sim.
Variables solo canc fl keeps : bool.
Variable bld : nat -> outcome nat nat.
Variable dflt : nat.
Notation v := (mk_view (Lazy fl) (if solo then Solo else Blocking) keeps).
Notation std := (std fl keeps).
Notation gstep := (gstep solo canc bld).
Notation gruns := (gruns solo canc bld).
Notation wstep := (wstep bld dflt v canc).
Notation wruns := (wruns bld dflt v canc).

(** One activity: its code, its call on the cell with guards, its call in the world. *)
Inductive tied (val : option nat) : thr -> gstat nat nat -> wstat -> Prop :=
| t_idle : tied val Idle (GIdle HNone) WFree
| t_keep g : proper g -> tied val (Keeping g) (GIdle (hold_of g)) (WKeeps g)
| t_fresh k n : canc = true -> modelled k = true -> tied val (Fresh (std k n)) (GIdle HNone) (WAsked k n)
| t_start k n : modelled k = true -> tied val (Doing (std k n)) (GIdle HNone) (WAsked k n)
| t_called k n o f : std k n = Op o f -> tied val (Waiting f) (GCalled HNone o) (WAsked k n)
| t_cancelled k n f : canc = true -> tied val (Waiting f) (GDone HNone RCancelled) (WAsked k n)
| t_answered f r o g : r <> RCancelled -> f r = Fin o g -> proper_opt g ->
    tied val (Waiting f) (GDone (hold_opt g) r) (WDone o g)
| t_end o g : proper_opt g -> tied val (Doing (Fin o g)) (GIdle (hold_opt g)) (WDone o g)
(* the getter that copies, after it got its guard *)
| t_cp1 u : val = Some u -> tied val (Waiting (on_copy fl)) (GDone HR (RGuard u)) (WDone (ORet (AnVal u)) None)
| t_cp2 u : val = Some u -> tied val (Doing (Op GGet on_copied)) (GIdle HR) (WDone (ORet (AnVal u)) None)
| t_cp3 u : val = Some u -> tied val (Waiting on_copied) (GCalled HR GGet) (WDone (ORet (AnVal u)) None)
| t_cp4 u : tied val (Waiting on_copied) (GDone HR (RVal (Some u))) (WDone (ORet (AnVal u)) None)
(* a guard is dropped before the method returns *)
| t_dr1 h o : h <> HNone -> tied val (Doing (Op GDrop (fun _ => Fin o None))) (GIdle h) (WDone o None)
| t_dr2 h o : h <> HNone -> tied val (Waiting (fun _ => Fin o None)) (GCalled h GDrop) (WDone o None)
(* the setter, once it may write *)
| t_st1 n : tied val (Waiting (on_store n)) (GDone HW RUnit) (WAsked KSetter n)
| t_st2 n : tied val (Doing (Op (GStore n) on_stored)) (GIdle HW) (WAsked KSetter n)
| t_st3 n : tied val (Waiting on_stored) (GCalled HW (GStore n)) (WAsked KSetter n)
| t_st4 o : tied val (Waiting on_stored) (GDone HW (RVal o)) (WDone (ORet (AnOpt o)) None)
(* a kept guard is used *)
| t_use1 g u o f : proper g -> usable v g u = true -> use_script g u = Op o f ->
    tied val (Doing (Op o f)) (GIdle (hold_of g)) (WUsing g u)
| t_use2 g u o f : proper g -> usable v g u = true -> use_script g u = Op o f ->
    tied val (Waiting f) (GCalled (hold_of g) o) (WUsing g u).

Record tie (c : gcell nat) (x : aid -> gstat nat nat) (th : aid -> thr) (cell : cellst) (ws : aid -> wstat) : Prop := {
  T_at : forall a, tied (g_val c) (th a) (x a) (ws a);
  T_val : c_val cell = g_val c;
  T_runs : c_builds cell = g_runs c;
  T_rd : forall b, In b (g_rd c) <-> sR (x b);
  T_wr : forall b, g_wr c = Some b <-> sW (x b);
  T_ex : g_wr c <> None -> g_rd c = [];
  T_cn : counts cell ws
}.

Lemma tied_guard val t g w gd : tied val t g w -> kept_by w = Some gd -> held g = hold_of gd /\ proper gd.
Proof.
  intros H K. destruct H; cbn in K; try discriminate K; try (injection K as <-); try subst; cbn; auto.
Qed.
Lemma guard_R gd : proper gd -> gd_write gd = false -> hold_of gd = HR.
Proof. unfold proper, hold_of. destruct gd as [[] []]; cbn; intuition congruence. Qed.
Lemma guard_W gd : proper gd -> gd_write gd = true -> hold_of gd = HM \/ hold_of gd = HW.
Proof. unfold proper, hold_of. destruct gd as [[] []]; cbn; intuition congruence. Qed.

Section Facts.
Variables (c : gcell nat) (x : aid -> gstat nat nat) (th : aid -> thr) (cell : cellst) (ws : aid -> wstat).
Hypothesis T : tie c x th cell ws.

Lemma wR_sR b : wR (ws b) -> sR (x b).
Proof. intros (g & K & G). destruct (tied_guard _ _ _ _ _ (T_at _ _ _ _ _ T b) K) as [Hh Pr]. unfold sR. rewrite Hh. now apply guard_R. Qed.
Lemma wW_sW b : wW (ws b) -> sW (x b).
Proof. intros (g & K & G). destruct (tied_guard _ _ _ _ _ (T_at _ _ _ _ _ T b) K) as [Hh Pr]. unfold sW. rewrite Hh. now apply guard_W. Qed.
Lemma readers_none : g_rd c = [] -> c_readers cell = 0.
Proof.
  intros E. destruct (cn_R _ _ (T_cn _ _ _ _ _ T)) as (L & _ & IL & <-). destruct L as [|b L]; auto.
  exfalso. assert (In b (g_rd c)) by (apply (T_rd _ _ _ _ _ T), wR_sR, IL; now left). rewrite E in H. destruct H.
Qed.
Lemma writer_none : (forall b, g_wr c = Some b -> ~ wW (ws b)) -> c_writer cell = false.
Proof.
  intros E. destruct (c_writer cell) eqn:W; auto. apply (cn_W _ _ (T_cn _ _ _ _ _ T)) in W as [b W].
  exfalso. apply (E b); auto. apply (T_wr _ _ _ _ _ T), wW_sW, W.
Qed.
Lemma open_world : open c = true -> c_writer cell = false.
Proof. unfold open. destruct (g_wr c) eqn:W; [discriminate|]. intros _. apply writer_none. rewrite W. discriminate. Qed.
Lemma free_world : free c = true -> excluded true cell = false.
Proof.
  unfold free. intros F. apply andb_true_iff in F as [O F]. unfold excluded. rewrite (open_world O), readers_none; [reflexivity|].
  destruct (g_rd c); congruence.
Qed.
Lemma mine_world a : sW (x a) -> kept_by (ws a) = None -> excluded true cell = false.
Proof.
  intros S1 K. apply (T_wr _ _ _ _ _ T) in S1. unfold excluded.
  rewrite readers_none by (apply (T_ex _ _ _ _ _ T); congruence).
  rewrite writer_none; [reflexivity|]. intros b E (g & K' & _). congruence.
Qed.

(** What an effect leaves alone. *)
Lemma effect_val a h o c' h' r : x a = GCalled h o -> effect solo bld a h o c = Some (c', h', r) ->
  g_val c' = g_val c \/ g_rd c = [].
Proof.
  intros Xa Ef.
  assert (Wa : h = HM \/ h = HW -> g_rd c = []).
  { intros Hh. apply (T_ex _ _ _ _ _ T). assert (g_wr c = Some a) by (apply (T_wr _ _ _ _ _ T); unfold sW; rewrite Xa; exact Hh). congruence. }
  assert (Fr : free c = true -> g_rd c = []).
  { unfold free. destruct (g_rd c); auto. rewrite andb_false_r. discriminate. }
  destruct h, o; cbn in Ef; try discriminate Ef;
    repeat match type of Ef with
    | context [if ?b then _ else _] => destruct b eqn:?; try discriminate Ef
    | context [match g_val c with _ => _ end] => destruct (g_val c) eqn:?; try discriminate Ef
    | context [match bld ?n with _ => _ end] => destruct (bld n) eqn:?
    end; injection Ef as <- <- <-; cbn; auto.
Qed.
Lemma effect_ex a h o c' h' r : x a = GCalled h o -> effect solo bld a h o c = Some (c', h', r) ->
  g_wr c' <> None -> g_rd c' = [].
Proof.
  intros Xa Ef. pose proof (T_ex _ _ _ _ _ T) as Ex.
  assert (Fr : free c <> false -> g_rd c = [] /\ g_wr c = None).
  { unfold free, open. destruct (g_rd c), (g_wr c); cbn; intuition congruence. }
  assert (Op : open c <> false -> g_wr c = None).
  { unfold open. destruct (g_wr c); cbn; intuition congruence. }
  destruct h, o; cbn in Ef; try discriminate Ef;
    repeat match type of Ef with
    | context [if (if ?b then _ else _) then _ else _] => destruct b eqn:?; try (rewrite orb_true_r in *; discriminate)
    | context [if ?b then _ else _] => destruct b; try discriminate Ef
    | context [match g_val c with _ => _ end] => destruct (g_val c); try discriminate Ef
    | context [match bld ?n with _ => _ end] => destruct (bld n)
    end; injection Ef as <- <- <-; cbn; auto;
    try (destruct Fr as [? ?]; [discriminate|]; intuition congruence);
    try (assert (g_wr c = None) by (apply Op; discriminate); intuition congruence);
    try (intros; rewrite Ex by auto; reflexivity); try congruence.
Qed.
End Facts.

Lemma tied_val val val' t g w : tied val t g w -> (sR g -> val' = val) -> tied val' t g w.
Proof. intros H K. destruct H; econstructor; eauto; rewrite K; auto; reflexivity. Qed.

(** An effect seen in all three. *)
Lemma commit_at c x th cell ws a h o c' h' r cell' ws' :
  tie c x th cell ws -> x a = GCalled h o -> effect solo bld a h o c = Some (c', h', r) ->
  tied (g_val c') (th a) (GDone h' r) (ws' a) -> (forall b, b <> a -> ws' b = ws b) ->
  c_val cell' = g_val c' -> c_builds cell' = g_runs c' -> counts cell' ws' ->
  tie c' (gset x a (GDone h' r)) th cell' ws'.
Proof.
  intros T Xa Ef Ta Ot Va Ru Cn.
  destruct (effect_guards _ _ _ _ _ _ _ _ _ _ Ef Xa (T_rd _ _ _ _ _ T) (T_wr _ _ _ _ _ T)) as [G1 G2].
  constructor; auto.
  - intros b. unfold gset. destruct (Nat.eqb_spec b a) as [->|N]; [exact Ta|]. rewrite Ot by auto.
    apply (tied_val (g_val c)); [apply T|]. intros S1. destruct (effect_val _ _ _ _ _ T _ _ _ _ _ _ Xa Ef) as [E|E]; auto.
    apply (T_rd _ _ _ _ _ T) in S1. rewrite E in S1. destruct S1.
  - eapply effect_ex; eauto.
Qed.
Lemma commit c x th cell ws a h o c' h' r cell' w' :
  tie c x th cell ws -> x a = GCalled h o -> effect solo bld a h o c = Some (c', h', r) ->
  tied (g_val c') (th a) (GDone h' r) w' -> c_val cell' = g_val c' -> c_builds cell' = g_runs c' ->
  counts cell' (wset ws a w') ->
  tie c' (gset x a (GDone h' r)) th cell' (wset ws a w').
Proof.
  intros. eapply commit_at; eauto; [rewrite wset_same; assumption|]. intros b N. now apply wset_other.
Qed.
Lemma w_one w t w' : wstep w t w' -> wruns w t w'.
Proof. intros H. rewrite <- (app_nil_r t). econstructor; [exact H|constructor]. Qed.

Notation disc := (if solo then Solo else Blocking).
Lemma may_access c x th cell ws w r : tie c x th cell ws -> (if solo || w then free c else open c) = true ->
  with_access disc w cell r = r.
Proof.
  intros T A. assert (F : free c = true -> with_access disc w cell r = r).
  { intros Fc. pose proof (free_world _ _ _ _ _ T Fc) as X. pose proof X as Y. unfold excluded in Y.
    apply orb_false_iff in Y as [Y _]. destruct solo; cbn -[excluded]; [now rewrite X|]. destruct w; [now rewrite X|]. unfold excluded. now rewrite Y. }
  assert (A' : free c = true \/ solo = false /\ w = false /\ open c = true) by (destruct solo, w; cbn in A; auto).
  destruct A' as [A'|(E1 & -> & A')]; [apply F, A'|]. rewrite E1. cbn. rewrite (open_world _ _ _ _ _ T A'). reflexivity.
Qed.
Lemma may_write c x th cell ws r : tie c x th cell ws -> excluded true cell = false -> with_access disc true cell r = r.
Proof. intros T A. destruct solo; cbn -[excluded]; rewrite A; reflexivity. Qed.

(** Looking at the content, building it if need be. *)
Lemma look_eff c x th cell ws a w kp c' h' r : tie c x th cell ws ->
  effect solo bld a HNone (r_op fl w) c = Some (c', h', r) ->
  (exists u cell0, look bld v w kp cell = Returns (AnVal u) (keeping disc kp w cell0) /\
     g_val c' = Some u /\ c_val cell0 = Some u /\ c_builds cell0 = g_runs c' /\
     c_readers cell0 = c_readers cell /\ c_writer cell0 = c_writer cell /\
     r = RGuard u /\ h' = (if w then HM else HR)) \/
  (exists e, fl = true /\ look bld v w kp cell = Returns (AnErr e) (built cell) /\ r = RErr e /\ h' = HNone /\ c' = one_more c) \/
  (look bld v w kp cell = Panics (built cell) /\ r = RPanic /\ h' = HNone /\ c' = one_more c).
Proof.
  intros T Ef. pose proof (T_val _ _ _ _ _ T) as Va. pose proof (T_runs _ _ _ _ _ T) as Ru.
  assert (Ef' : match g_val c with
    | Some u => if (if solo || w then free c else open c) then Some (@grant nat nat a (r_op fl w) u c) else None
    | None => if free c then Some match bld (g_runs c) with
                   | BOk u => grant a (r_op fl w) u (one_more (with_val c (Some u)))
                   | BErr e => (one_more c, HNone, reading_err (r_op fl w) e)
                   | BPanic => (one_more c, HNone, RPanic)
                   end else None end = Some (c', h', r)).
  { rewrite <- Ef. destruct fl, w; reflexivity. }
  clear Ef. rename Ef' into Ef. unfold look. cbn [v_shape v_disc]. rewrite Va. destruct (g_val c) as [u|] eqn:Vc.
  - destruct (if solo || w then free c else open c) eqn:A; [|discriminate Ef]. left. exists u, cell.
    rewrite (may_access _ _ _ _ _ _ _ T A).
    assert (grant a (r_op fl w) u c = (if w then set_writer (Some a) c else add_reader a c, if w then HM else HR, @RGuard nat nat u))
      as G by (destruct fl, w; reflexivity).
    rewrite G in Ef. injection Ef as <- <- <-. destruct w; cbn; auto 20.
  - destruct (free c) eqn:A; [|discriminate Ef]. rewrite (may_write _ _ _ _ _ _ T (free_world _ _ _ _ _ T A)).
    rewrite Ru. destruct (bld (g_runs c)) as [u|e|] eqn:B.
    + left. exists u, (filled (built cell) (Some u)).
      assert (forall c0, grant a (r_op fl w) u c0 = (if w then set_writer (Some a) c0 else add_reader a c0, if w then HM else HR, @RGuard nat nat u))
        as G by (intros; destruct fl, w; reflexivity).
      rewrite G in Ef. injection Ef as <- <- <-. cbn. rewrite Ru. destruct w; cbn; auto 20.
    + destruct fl eqn:Ff.
      * right; left. exists e. injection Ef as <- <- <-. destruct w; cbn; auto 20.
      * right; right. injection Ef as <- <- <-. destruct w; cbn; auto 20.
    + right; right. injection Ef as <- <- <-. auto.
Qed.
Lemma read_commit c x th cell ws a w k n c' h' r : tie c x th cell ws -> ws a = WAsked k n ->
  x a = GCalled HNone (r_op fl w) -> th a = Waiting (on_guard fl w) ->
  spec_call bld dflt v k n cell = look bld v w true cell ->
  hands_guard v k = Some (mk_guard w false) ->
  effect solo bld a HNone (r_op fl w) c = Some (c', h', r) ->
  exists cell' ws', wruns (cell, ws) [] (cell', ws') /\ tie c' (gset x a (GDone h' r)) th cell' ws'.
Proof.
  intros T Wa Xa Ta Sp Hg Ef.
  destruct (look_eff _ _ _ _ _ _ _ true _ _ _ T Ef) as [(u & cell0 & Lk & V1 & V2 & Ru & Rd & Wr & -> & ->)|[(e & Ff & Lk & -> & -> & ->)|(Lk & -> & -> & ->)]];
    rewrite <- Sp in Lk.
  - eexists _, _. split; [eapply w_one, w_answer; eassumption|]. unfold handed. rewrite Hg.
    eapply commit; [exact T|exact Xa|exact Ef| | | |].
    + rewrite Ta. replace (if w then HM else HR) with (hold_opt (Some (mk_guard w false))) by (destruct w; reflexivity).
      apply t_answered; [discriminate|reflexivity|]. cbn. unfold proper. cbn. discriminate.
    + destruct solo, w; cbn; congruence.
    + destruct solo, w; cbn; congruence.
    + destruct w.
      * eapply counts_gainW; [apply T|rewrite Wa; reflexivity|reflexivity|reflexivity| |]; destruct solo; cbn; congruence.
      * eapply counts_gainR; [apply T|rewrite Wa; reflexivity|reflexivity|reflexivity| |]; destruct solo; cbn; congruence.
  - eexists _, _. split; [eapply w_one, w_answer; eassumption|]. cbn [handed].
    eapply commit; [exact T|exact Xa|exact Ef| | | |].
    + rewrite Ta. change HNone with (hold_opt None). apply t_answered; [discriminate| |exact I]. cbn. rewrite Ff. reflexivity.
    + cbn. apply T.
    + cbn. rewrite (T_runs _ _ _ _ _ T). reflexivity.
    + apply (counts_same cell); [apply T|rewrite Wa; reflexivity|reflexivity|reflexivity].
  - eexists _, _. split; [eapply w_one, w_panic; eassumption|].
    eapply commit; [exact T|exact Xa|exact Ef| | | |].
    + rewrite Ta. change HNone with (hold_opt None). apply t_answered; [discriminate|reflexivity|exact I].
    + cbn. apply T.
    + cbn. rewrite (T_runs _ _ _ _ _ T). reflexivity.
    + apply (counts_same cell); [apply T|rewrite Wa; reflexivity|reflexivity|reflexivity].
Qed.
Lemma copy_commit c x th cell ws a k n c' h' r : tie c x th cell ws -> ws a = WAsked k n ->
  x a = GCalled HNone (r_op fl false) -> th a = Waiting (on_copy fl) ->
  spec_call bld dflt v k n cell = look bld v false false cell ->
  hands_guard v k = None ->
  effect solo bld a HNone (r_op fl false) c = Some (c', h', r) ->
  exists cell' ws', wruns (cell, ws) [] (cell', ws') /\ tie c' (gset x a (GDone h' r)) th cell' ws'.
Proof.
  intros T Wa Xa Ta Sp Hg Ef.
  destruct (look_eff _ _ _ _ _ _ _ false _ _ _ T Ef) as [(u & cell0 & Lk & V1 & V2 & Ru & Rd & Wr & -> & ->)|[(e & Ff & Lk & -> & -> & ->)|(Lk & -> & -> & ->)]];
    rewrite <- Sp in Lk.
  - replace (keeping disc false false cell0) with cell0 in Lk by (destruct solo; reflexivity).
    eexists _, _. split; [eapply w_one, w_answer; eassumption|]. unfold handed. rewrite Hg.
    eapply commit; [exact T|exact Xa|exact Ef| |congruence|congruence|].
    + rewrite Ta. apply t_cp1. exact V1.
    + apply (counts_same cell); [apply T|rewrite Wa; reflexivity|assumption|assumption].
  - eexists _, _. split; [eapply w_one, w_answer; eassumption|]. cbn [handed].
    eapply commit; [exact T|exact Xa|exact Ef| | | |].
    + rewrite Ta. change HNone with (hold_opt None). apply t_answered; [discriminate| |exact I]. cbn. rewrite Ff. reflexivity.
    + cbn. apply T.
    + cbn. rewrite (T_runs _ _ _ _ _ T). reflexivity.
    + apply (counts_same cell); [apply T|rewrite Wa; reflexivity|reflexivity|reflexivity].
  - eexists _, _. split; [eapply w_one, w_panic; eassumption|].
    eapply commit; [exact T|exact Xa|exact Ef| | | |].
    + rewrite Ta. change HNone with (hold_opt None). apply t_answered; [discriminate|reflexivity|exact I].
    + cbn. apply T.
    + cbn. rewrite (T_runs _ _ _ _ _ T). reflexivity.
    + apply (counts_same cell); [apply T|rewrite Wa; reflexivity|reflexivity|reflexivity].
Qed.

(** The instant of a call on the cell with guards. *)
Lemma effective c x th cell ws a h o c' h' r : tie c x th cell ws -> x a = GCalled h o ->
  effect solo bld a h o c = Some (c', h', r) ->
  exists cell' ws', wruns (cell, ws) [] (cell', ws') /\ tie c' (gset x a (GDone h' r)) th cell' ws'.
Proof.
  intros T Xa Ef. pose proof (T_at _ _ _ _ _ T a) as A. rewrite Xa in A.
  inversion A as [ | | | |k n o0 f Es Et Eo Ew| | | | | |u Vu Et Eo Ew| | |h0 o0 Hh Et Eo Ew| | |n Et Eo Ew| |
    |g u o0 f Pr Us Es Et Eo Ew]; symmetry in Et, Ew.
  - (* called *) subst h o0. destruct k; cbn in Es; try discriminate Es; injection Es as <- <-.
    + assert (Kc : keeps = true \/ keeps = false) by (destruct keeps; auto).
      destruct Kc as [Ke|Ke]; rewrite Ke in Et.
      * eapply read_commit; eauto; cbn; rewrite Ke; try reflexivity; destruct solo; reflexivity.
      * eapply copy_commit; eauto; cbn; rewrite Ke; try reflexivity; destruct solo; reflexivity.
    + eapply read_commit; eauto; cbn; try reflexivity; destruct solo; reflexivity.
    + (* clearer *)
      cbn in Ef. destruct (free c) eqn:F; [|discriminate Ef]. injection Ef as <- <- <-.
      pose proof (may_write _ _ _ _ _ (Returns (AnOpt (c_val cell)) (filled cell None)) T (free_world _ _ _ _ _ T F)) as Mw.
      eexists _, _. split; [eapply w_one, w_answer; [exact Ew|exact Mw]|]. cbn [handed].
      replace (hands_guard v KClearer) with (@None guard) by (destruct solo; reflexivity).
      eapply commit; [exact T|exact Xa|cbn; rewrite F; reflexivity| |reflexivity|apply T|].
      * rewrite Et, (T_val _ _ _ _ _ T). change HNone with (hold_opt None).
        apply t_answered; [discriminate|unfold on_clear; apply finish_opt|exact I].
      * apply (counts_same cell); [apply T|rewrite Ew; reflexivity|reflexivity|reflexivity].
    + (* predicate *)
      cbn in Ef. injection Ef as <- <- <-.
      eexists _, _. split; [eapply w_one, w_answer; [exact Ew|reflexivity]|]. cbn [handed].
      replace (hands_guard v KPredicate) with (@None guard) by (destruct solo; reflexivity).
      eapply commit; [exact T|exact Xa|reflexivity| |apply T|apply T|].
      * rewrite Et, (T_val _ _ _ _ _ T). change HNone with (hold_opt None).
        apply t_answered; [discriminate|reflexivity|exact I].
      * apply (counts_same cell); [apply T|rewrite Ew; reflexivity|reflexivity|reflexivity].
    + eapply read_commit; eauto; cbn; try reflexivity; destruct solo; reflexivity.
    + (* setter: nothing yet *)
      cbn in Ef. destruct (free c) eqn:F; [|discriminate Ef]. injection Ef as <- <- <-.
      exists cell, ws. split; [constructor|].
      eapply commit_at; [exact T|exact Xa|cbn; rewrite F; reflexivity| |auto|apply T|apply T|apply T].
      rewrite Et, Ew. apply t_st1.
    + (* writer *)
      cbn in Ef. destruct (free c) eqn:F; [|discriminate Ef]. injection Ef as <- <- <-.
      pose proof (may_write _ _ _ _ _ (Returns AnWriter (keeping disc true true cell)) T (free_world _ _ _ _ _ T F)) as Mw.
      eexists _, _. split; [eapply w_one, w_answer; [exact Ew|exact Mw]|].
      assert (Hd : handed v KWriter AnWriter = Some (mk_guard true true)) by (destruct solo; reflexivity). rewrite Hd.
      eapply commit; [exact T|exact Xa|cbn; rewrite F; reflexivity| | | |].
      * rewrite Et. change HW with (hold_opt (Some (mk_guard true true))).
        apply t_answered; [discriminate|reflexivity|]. cbn. unfold proper. auto.
      * destruct solo; cbn; apply T.
      * destruct solo; cbn; apply T.
      * eapply counts_gainW; [apply T|rewrite Ew; reflexivity|reflexivity|reflexivity| |]; destruct solo; reflexivity.
  - (* copying *) subst h o. cbn in Ef. rewrite Vu in Ef. injection Ef as <- <- <-.
    exists cell, ws. split; [constructor|].
    eapply commit_at; [exact T|exact Xa|cbn; rewrite Vu; reflexivity| |auto|apply T|apply T|apply T].
    rewrite Et, Ew. apply t_cp4.
  - (* dropping before the end *) subst h0 o.
    assert (Hr : h' = HNone /\ r = RUnit /\ g_val c' = g_val c /\ g_runs c' = g_runs c).
    { destruct h; cbn in Ef; try congruence; injection Ef as <- <- <-; auto. }
    destruct Hr as (-> & -> & Vc & Rc). exists cell, ws. split; [constructor|].
    eapply commit_at; [exact T|exact Xa|exact Ef| |auto|rewrite Vc; apply T|rewrite Rc; apply T|apply T].
    rewrite Et, Ew. change HNone with (hold_opt None). apply t_answered; [discriminate|reflexivity|exact I].
  - (* storing *) subst h o. cbn in Ef. injection Ef as <- <- <-.
    assert (Ex : excluded true cell = false).
    { eapply mine_world; [exact T| |rewrite Ew; reflexivity]. unfold sW. rewrite Xa. cbn. auto. }
    pose proof (may_write _ _ _ _ _ (Returns (AnOpt (c_val cell)) (filled cell (Some n))) T Ex) as Mw.
    eexists _, _. split; [eapply w_one, w_answer; [exact Ew|exact Mw]|]. cbn [handed].
    replace (hands_guard v KSetter) with (@None guard) by (destruct solo; reflexivity).
    eapply commit; [exact T|exact Xa|reflexivity| |reflexivity|apply T|].
    + rewrite Et, (T_val _ _ _ _ _ T). apply t_st4.
    + apply (counts_same cell); [apply T|rewrite Ew; reflexivity|reflexivity|reflexivity].
  - (* using a guard *) subst h o0. destruct u as [|[y|]|]; cbn in Es, Us.
    + destruct (gd_raw g) eqn:Rg; [discriminate Es|]. injection Es as <- <-.
      assert (Vc : exists m, g_val c = Some m).
      { destruct (g_val c) eqn:E0; eauto. unfold hold_of in Ef. rewrite Rg in Ef. destruct (gd_write g); cbn in Ef; rewrite E0 in Ef; discriminate Ef. }
      destruct Vc as [m Vc].
      assert (Hr : c' = c /\ h' = hold_of g /\ r = RVal (Some m)).
      { unfold hold_of in *. rewrite Rg in *. destruct (gd_write g); cbn in Ef; rewrite Vc in Ef; injection Ef as <- <- <-; auto. }
      destruct Hr as (-> & -> & ->).
      eexists _, _. split; [eapply w_one, w_look; exact Ew|].
      eapply commit; [exact T|exact Xa|exact Ef| |apply T|apply T|].
      * rewrite Et. change (hold_of g) with (hold_opt (Some g)). apply t_answered; [discriminate| |exact Pr].
        cbn. unfold shown. rewrite Rg, (T_val _ _ _ _ _ T), Vc. reflexivity.
      * apply (counts_same cell); [apply T|rewrite Ew; reflexivity|reflexivity|reflexivity].
    + assert (Gw : gd_write g = true) by (apply andb_true_iff in Us as [? _]; assumption).
      assert (Hr : h' = hold_of g /\ c' = with_val c (Some y) /\ (f r = Fin ODone (Some g)) /\ r <> RCancelled).
      { unfold hold_of in *. destruct (gd_raw g); [|rewrite Gw in *]; injection Es as <- <-; cbn in Ef;
          injection Ef as <- <- <-; repeat split; discriminate. }
      destruct Hr as (-> & -> & Fr & Nr).
      eexists _, _. split; [eapply w_one, w_put; exact Ew|].
      eapply commit; [exact T|exact Xa|exact Ef| |reflexivity|apply T|].
      * rewrite Et. change (hold_of g) with (hold_opt (Some g)). apply t_answered; assumption.
      * apply (counts_same cell); [apply T|rewrite Ew; reflexivity|reflexivity|reflexivity].
    + destruct (gd_raw g) eqn:Rg; [|discriminate Es]. injection Es as <- <-.
      assert (Hr : h' = hold_of g /\ c' = with_val c None /\ r = RVal (g_val c)).
      { unfold hold_of in *. rewrite Rg in *. cbn in Ef. injection Ef as <- <- <-. auto. }
      destruct Hr as (-> & -> & ->).
      eexists _, _. split; [eapply w_one, w_put; exact Ew|].
      eapply commit; [exact T|exact Xa|exact Ef| |reflexivity|apply T|].
      * rewrite Et. change (hold_of g) with (hold_opt (Some g)). apply t_answered; [discriminate|reflexivity|exact Pr].
      * apply (counts_same cell); [apply T|rewrite Ew; reflexivity|reflexivity|reflexivity].
    + injection Es as <- <-.
      assert (Hr : h' = HNone /\ r = RUnit /\ g_val c' = g_val c /\ g_runs c' = g_runs c).
      { unfold hold_of in Ef. destruct (gd_raw g); [|destruct (gd_write g)]; cbn in Ef; injection Ef as <- <- <-; auto. }
      destruct Hr as (-> & -> & Vc & Rc).
      eexists _, _. split; [eapply w_one, w_drop; exact Ew|].
      eapply commit; [exact T|exact Xa|exact Ef| | | |].
      * rewrite Et. change HNone with (hold_opt None). apply t_answered; [discriminate|reflexivity|exact I].
      * unfold without. rewrite Vc. destruct (gd_write g); apply T.
      * unfold without. rewrite Rc. destruct (gd_write g); apply T.
      * unfold without. destruct (gd_write g) eqn:Gw.
        -- eapply (counts_loseW cell); [apply T|rewrite Ew; reflexivity|exact Gw|reflexivity| |reflexivity|reflexivity].
           intros b Wb. apply (wW_sW _ _ _ _ _ T) in Wb. apply (T_wr _ _ _ _ _ T) in Wb.
           assert (g_wr c = Some a) by (apply (T_wr _ _ _ _ _ T); unfold sW; rewrite Xa; cbn; apply guard_W; assumption).
           congruence.
        -- eapply (counts_loseR cell); [apply T|rewrite Ew; reflexivity|exact Gw|reflexivity|reflexivity|reflexivity].
Qed.
End Sim.
