(** Proofs for C66: a run of MultiModel.v, seen at one lazy field, is a run of
    SyncProxyModel.v. *)
From Coq Require Import List Bool Arith Lia Permutation Cantor.
From Verif Require Import ProxyTypes AtomicCell MultiSpec StorySpec.
From Verif Require SyncProxyModel SyncProxyInv SyncProxySim.
From Verif Require Import MultiModel MultiStory.
Import ListNotations.

Notation ast := (SyncProxyModel.st nat nat).
Notation apc := (SyncProxyModel.pc nat nat).
Notation aval := (@SyncProxyModel.value nat nat).
Notation aflag := (@SyncProxyModel.flag nat nat).
Notation alw := (@SyncProxyModel.lw nat nat).
Notation alu := (@SyncProxyModel.lu nat nat).
Notation alr := (@SyncProxyModel.lr nat nat).
Notation apcs := (@SyncProxyModel.pcs nat nat).
Notation ainv := (@SyncProxyInv.inv nat nat).
Notation arun := (@SyncProxyModel.run nat nat).
Notation aHold := (@SyncProxyModel.Hold nat nat).
Notation lockof := (@SyncProxyInv.lockof nat nat).

(** ** Program points *)

Definition trm (m : rmode) : SyncProxyModel.rmode :=
  match m with
  | MRead => SyncProxyModel.MRead
  | MTryRead => SyncProxyModel.MTryRead
  | MReadMut => SyncProxyModel.MReadMut
  | MTryReadMut => SyncProxyModel.MTryReadMut
  | MLazy => SyncProxyModel.MLazy
  end.

(** A writer that has the writer bit and waits for the readers is, for
    SyncProxyModel.v, still waiting. *)
Definition tr (p : pc) : apc :=
  match p with
  | Ret h r => SyncProxyModel.Ret h r
  | I_Acq m => SyncProxyModel.RI_Acq (trm m)
  | I_Check m => SyncProxyModel.RI_Check (trm m)
  | I_Upg m | I_Drain m => SyncProxyModel.RI_Upg (trm m)
  | I_Recheck m => SyncProxyModel.RI_Recheck (trm m)
  | I_Build m => SyncProxyModel.RI_GetBld (trm m)
  | I_SetVal m v => SyncProxyModel.RI_SetVal (trm m) v
  | I_SetFlag m => SyncProxyModel.RI_SetFlag (trm m)
  | I_Down m => SyncProxyModel.RI_Down (trm m)
  | I_Done m => SyncProxyModel.RI_Done (trm m)
  | I_Fail m e => SyncProxyModel.RI_Fail (trm m) e
  | I_Unwind m => SyncProxyModel.RI_Unwind (trm m)
  | R_Map m => SyncProxyModel.R_Map (trm m)
  | M_Upg m | M_Drain m => SyncProxyModel.M_Upg (trm m)
  | M_Map m => SyncProxyModel.M_Map (trm m)
  | W_Acq | W_Drain => SyncProxyModel.W_Acq
  | C_Acq | C_Drain => SyncProxyModel.C_Acq
  | C_Flag => SyncProxyModel.C_Flag
  | C_Take => SyncProxyModel.C_Take
  | C_Rel o => SyncProxyModel.C_Rel o
  | L_Load => SyncProxyModel.L_Load
  | K_Acq => SyncProxyModel.K_Acq
  | K_Val => SyncProxyModel.K_Val
  | K_Flag o => SyncProxyModel.K_Flag o
  | K_Rel o b => SyncProxyModel.K_Rel o b
  | D_Acq => SyncProxyModel.D_Acq
  | D_Val => SyncProxyModel.D_Val
  | D_Rel o => SyncProxyModel.D_Rel o
  | G_Get h => SyncProxyModel.G_Get h
  | G_Set v => SyncProxyModel.G_Set v
  | S_Flag v => SyncProxyModel.S_Flag v
  | S_Rep v => SyncProxyModel.S_Rep v
  | X_Flag => SyncProxyModel.X_Flag
  | X_Take => SyncProxyModel.X_Take
  | G_Drop h => SyncProxyModel.Drop h
  | _ => SyncProxyModel.Hold HNone
  end.

Definition drains (p : pc) : bool :=
  match p with I_Drain _ | M_Drain _ | W_Drain | C_Drain => true | _ => false end.

(** The points from which SyncProxyModel.v gets the exclusive lock. *)
Definition draining (q : apc) : Prop :=
  match q with
  | SyncProxyModel.RI_Upg _ | SyncProxyModel.M_Upg _ | SyncProxyModel.W_Acq | SyncProxyModel.C_Acq => True
  | _ => False
  end.

Definition lazy_pc (p : pc) : bool :=
  match p with
  | Q_Acq _ | Q_Acq2 _ | Q_Cmp _ | Q_Rel2 _ _ | Q_Rel _
  | LR_Acq | LR_Map | LW_Acq | LW_Drain | LW_Map => false
  | _ => true
  end.

(** A call on another field stays away from [f]. *)
Definition pc_avoids (f : fid) (p : pc) : Prop :=
  match p with
  | Q_Acq g | Q_Acq2 g | Q_Cmp g | Q_Rel2 g _ => g <> f
  | _ => True
  end.

(** ** The field *)

Definition tag (a : aid) : tid := fst (of_nat a).
Definition age (a : aid) : nat := snd (of_nat a).

(** [dr]: the activity that has the writer bit and waits for the readers. *)
Record alike (c : cell) (sa : ast) (dr : option aid) : Prop := mkalike {
  al_v : value c = aval sa;
  al_f : flag c = aflag sa;
  al_l : match dr with
         | None => lw c = option_map tag (alw sa) /\ lu c = option_map tag (alu sa)
         | Some a => lw c = Some (tag a) /\ lu c = None /\ alw sa = None /\
                     (alu sa = None \/ alu sa = Some a) /\ draining (apcs sa a)
         end;
  al_r : Permutation (lr c) (map tag (alr sa));
  al_n : NoDup (alr sa)
}.

Lemma drop_one_perm x l : In x l -> Permutation l (x :: drop_one x l).
Proof.
  induction l as [|y l IH]; [intros []|]. cbn. intros H.
  destruct (Nat.eqb_spec y x) as [->|N]; [reflexivity|].
  destruct H as [->|H]; [congruence|].
  rewrite perm_swap. constructor. auto.
Qed.

Lemma drop_reader_out a l : ~ In a l -> SyncProxyModel.drop_reader a l = l.
Proof.
  unfold SyncProxyModel.drop_reader. induction l as [|y l IH]; auto. cbn. intros H.
  destruct (Nat.eqb_spec y a) as [->|N]; [tauto|]. cbn. f_equal. apply IH. tauto.
Qed.

Lemma drop_reader_perm a l : NoDup l -> In a l -> Permutation l (a :: SyncProxyModel.drop_reader a l).
Proof.
  induction l as [|y l IH]; [intros _ []|]. intros N H. inversion N; subst.
  unfold SyncProxyModel.drop_reader. cbn.
  destruct (Nat.eqb_spec y a) as [->|D]; cbn.
  - fold (SyncProxyModel.drop_reader a l). rewrite drop_reader_out; auto.
  - destruct H as [->|H]; [congruence|]. rewrite perm_swap. constructor. apply IH; auto.
Qed.

Lemma readers_drop a l L : NoDup l -> In a l -> Permutation L (map tag l) ->
  Permutation (drop_one (tag a) L) (map tag (SyncProxyModel.drop_reader a l)).
Proof.
  intros N I P. apply (Permutation_cons_inv (a := tag a)).
  transitivity L.
  - symmetry. apply drop_one_perm. apply (Permutation_in _ (Permutation_sym P)). now apply in_map.
  - rewrite P. change (tag a :: map tag (SyncProxyModel.drop_reader a l))
      with (map tag (a :: SyncProxyModel.drop_reader a l)).
    apply Permutation_map, drop_reader_perm; auto.
Qed.

Lemma no_readers c sa dr : alike c sa dr -> lr c = [] -> alr sa = [].
Proof.
  intros A E. pose proof (al_r _ _ _ A) as P. rewrite E in P. apply Permutation_nil in P.
  now apply map_eq_nil in P.
Qed.

Lemma no_drain c sa dr : alike c sa dr -> lw c = None ->
  dr = None /\ alw sa = None /\ (lu c = None -> alu sa = None).
Proof.
  intros A E. pose proof (al_l _ _ _ A) as L. destruct dr as [a|]; [destruct L; congruence|].
  destruct L as [L1 L2]. rewrite E in L1. rewrite L2. split; auto.
  split; [now destruct (alw sa)|]. now destruct (alu sa).
Qed.

Lemma writer_settled c sa dr a : ainv sa -> alike c sa dr -> lockof (apcs sa a) = SyncProxyInv.LW ->
  dr = None /\ alw sa = Some a /\ alu sa = None /\ alr sa = [].
Proof.
  intros I A L. apply (SyncProxyInv.i_w _ I) in L.
  destruct (SyncProxyInv.i_x _ I _ L) as [U R].
  pose proof (al_l _ _ _ A) as K. destruct dr as [b|]; auto.
  destruct K as (_ & _ & K & _). congruence.
Qed.

Lemma upgrader_settled c sa dr a : ainv sa -> alike c sa dr -> lockof (apcs sa a) = SyncProxyInv.LU ->
  dr <> Some a -> dr = None /\ alu sa = Some a /\ alw sa = None.
Proof.
  intros I A L N. apply (SyncProxyInv.i_u _ I) in L.
  assert (W : alw sa = None).
  { destruct (alw sa) as [b|] eqn:E; auto. destruct (SyncProxyInv.i_x _ I _ E). congruence. }
  pose proof (al_l _ _ _ A) as K. destruct dr as [b|]; auto.
  destruct K as (_ & _ & _ & [K|K] & _); congruence.
Qed.

Lemma not_draining c sa dr a : alike c sa dr -> ~ draining (apcs sa a) -> dr <> Some a.
Proof. intros A N ->. destruct (al_l _ _ _ A) as (_ & _ & _ & _ & K). auto. Qed.

(** ** One step of a call on the field *)

Definition moved (c' : cell) (sa sa' : ast) (dr dr' : option aid) (a : aid) (q : apc) (d : bool) : Prop :=
  alike c' sa' dr' /\ apcs sa' a = q /\ (forall b, b <> a -> apcs sa' b = apcs sa b) /\
  (dr' = Some a <-> d = true) /\ (forall b, b <> a -> (dr' = Some b <-> dr = Some b)).

Lemma upd_same F f c : upd F f c f = c.
Proof. unfold upd. now rewrite Nat.eqb_refl. Qed.
Lemma upd_other F f c g : g <> f -> upd F f c g = F g.
Proof. unfold upd. destruct (Nat.eqb_spec g f); congruence. Qed.

Lemma aupd_same (x : aid -> apc) a q : SyncProxyModel.upd x a q a = q.
Proof. unfold SyncProxyModel.upd. now rewrite Nat.eqb_refl. Qed.
Lemma aupd_other (x : aid -> apc) a q b : b <> a -> SyncProxyModel.upd x a q b = x b.
Proof. unfold SyncProxyModel.upd. destruct (Nat.eqb_spec b a); congruence. Qed.

Lemma one_step sa a sa' h :
  SyncProxyModel.step_code sa a = Some (sa', h) ->
  arun sa [SyncProxyModel.AStep a] = Some (sa', h).
Proof. intros H. cbn. rewrite H. now rewrite app_nil_r. Qed.

Lemma alike_pc c sa dr a q : alike c sa dr -> dr <> Some a -> alike c (SyncProxyModel.set_pc sa a q) dr.
Proof.
  intros [A1 A2 A3 A4 A5] N. constructor; cbn; auto. destruct dr as [b|]; auto.
  rewrite aupd_other by congruence. exact A3.
Qed.

Definition reached (c' : cell) (sa : ast) (dr : option aid) (a : aid) (p' : pc) : Prop :=
  exists l sa' dr', arun sa l = Some (sa', []) /\ moved c' sa sa' dr dr' a (tr p') (drains p').

(** The ordinary step: nobody starts or stops to wait for readers. *)
Lemma one_move c' sa dr a p' sa1 :
  SyncProxyModel.step_code sa a = Some (SyncProxyModel.set_pc sa1 a (tr p'), []) ->
  apcs sa1 = apcs sa -> alike c' sa1 dr -> dr <> Some a -> drains p' = false ->
  reached c' sa dr a p'.
Proof.
  intros R E A N D. exists [SyncProxyModel.AStep a], (SyncProxyModel.set_pc sa1 a (tr p')), dr.
  split; [now apply one_step|]. split; [now apply alike_pc|]. cbn. rewrite E, aupd_same.
  split; auto. split; [intros b Hb; now apply aupd_other|]. split; [|tauto].
  rewrite D. split; [contradiction|discriminate].
Qed.

(** The step that ends the wait. *)
Lemma drained c' sa a p' sa1 :
  SyncProxyModel.step_code sa a = Some (SyncProxyModel.set_pc sa1 a (tr p'), []) ->
  apcs sa1 = apcs sa -> alike c' sa1 None -> drains p' = false ->
  reached c' sa (Some a) a p'.
Proof.
  intros R E A D. exists [SyncProxyModel.AStep a], (SyncProxyModel.set_pc sa1 a (tr p')), None.
  split; [now apply one_step|]. split; [now apply alike_pc|]. cbn. rewrite E, aupd_same.
  split; auto. split; [intros b Hb; now apply aupd_other|]. rewrite D.
  split; [split; discriminate|]. intros b Hb. split; congruence.
Qed.

(** The step that begins it. *)
Lemma drain c' sa a p' : apcs sa a = tr p' -> alike c' sa (Some a) -> drains p' = true ->
  reached c' sa None a p'.
Proof.
  intros E A D. exists [], sa, (Some a). split; [reflexivity|]. split; auto. split; auto. split; auto.
  rewrite D. split; [tauto|]. intros b Hb. split; congruence.
Qed.

Lemma reader_free sa a : ainv sa -> lockof (apcs sa a) = SyncProxyInv.LN -> ~ In a (alr sa).
Proof. intros I L H. apply (SyncProxyInv.i_r _ I) in H. congruence. Qed.

Lemma in_readers sa a : ainv sa -> lockof (apcs sa a) = SyncProxyInv.LR -> In a (alr sa).
Proof. intros I L. now apply (SyncProxyInv.i_r _ I). Qed.

Lemma alike_value c sa dr ov : alike c sa dr -> alike (set_value c ov) (SyncProxyModel.set_value sa ov) dr.
Proof. intros [A1 A2 A3 A4 A5]. constructor; cbn; auto. Qed.
Lemma alike_flag c sa dr b : alike c sa dr -> alike (set_flag c b) (SyncProxyModel.set_flag sa b) dr.
Proof. intros [A1 A2 A3 A4 A5]. constructor; cbn; auto. Qed.

Lemma alike_unlock_r c sa dr a : alike c sa dr -> In a (alr sa) ->
  alike (set_lock c (lw c) (lu c) (drop_one (tag a) (lr c)))
        (SyncProxyModel.set_lock sa (alw sa) (alu sa) (SyncProxyModel.drop_reader a (alr sa))) dr.
Proof.
  intros [A1 A2 A3 A4 A5] I. constructor; cbn; auto.
  - apply readers_drop; auto.
  - now apply NoDup_filter.
Qed.

Lemma alike_lock_r c sa a : alike c sa None -> ~ In a (alr sa) -> lw c = None -> alw sa = None ->
  alike (set_lock c None (lu c) (tag a :: lr c))
        (SyncProxyModel.set_lock sa None (alu sa) (a :: alr sa)) None.
Proof.
  intros [A1 A2 [A3 A3'] A4 A5] N E1 E2. constructor; cbn; auto. now constructor.
Qed.

(** Settled locks of all kinds. *)
Lemma alike_set c sa dr w u r w' u' r' : alike c sa dr ->
  w = option_map tag w' -> u = option_map tag u' -> Permutation r (map tag r') -> NoDup r' ->
  alike (set_lock c w u r) (SyncProxyModel.set_lock sa w' u' r') None.
Proof. intros [A1 A2 A3 A4 A5] E1 E2 P N. constructor; cbn; auto. Qed.

Lemma alike_drain c sa a : alike c sa None -> alw sa = None -> (alu sa = None \/ alu sa = Some a) ->
  draining (apcs sa a) -> alike (set_lock c (Some (tag a)) None (lr c)) sa (Some a).
Proof. intros [A1 A2 A3 A4 A5] E1 E2 D. constructor; cbn; auto. Qed.

Lemma alike_drained c sa a : alike c sa (Some a) -> lr c = [] ->
  alike c (SyncProxyModel.set_lock sa (Some a) None []) None.
Proof.
  intros [A1 A2 (A3 & A3' & _) A4 A5] E. constructor; cbn; auto; [|constructor]. now rewrite E.
Qed.

Lemma pstep_field f F t p F' p' sa dr a :
  ainv sa -> alike (F f) sa dr -> tag a = t -> apcs sa a = tr p -> (dr = Some a <-> drains p = true) ->
  lazy_pc p = true ->
  pstep F t f p = Some (F', p') ->
  lazy_pc p' = true /\ reached (F' f) sa dr a p'.
Proof.
  intros I A <- E D Z H.
  assert (B : SyncProxyModel.bset sa = true) by apply (SyncProxyInv.i_b _ I).
  pose proof (SyncProxyInv.i_p _ I a) as OK. rewrite E in OK.
  split.
  { destruct p; cbn in Z, H |- *; try discriminate Z; try discriminate H;
      repeat match type of H with
             | context [match ?x with _ => _ end] => destruct x; try discriminate H
             end; injection H as <- <-; reflexivity. }
  assert (SC : SyncProxyModel.step_code sa a = SyncProxyModel.step_code sa a) by reflexivity.
  unfold SyncProxyModel.step_code in SC at 2. rewrite E in SC.
  assert (LK : lockof (apcs sa a) = lockof (tr p)) by now rewrite E.
  destruct (drains p) eqn:DP.
  - destruct D as [_ D]. specialize (D eq_refl). subst dr.
    destruct p; try discriminate DP; try discriminate Z; cbn in H, SC, OK, LK |- *;
      (destruct (lr (F f)) eqn:Lr; [|discriminate]); injection H as <- <-;
      pose proof (no_readers _ _ _ A Lr) as Lr'; rewrite Lr' in SC;
      pose proof (al_l _ _ _ A) as (_ & _ & W & U & _); rewrite ?W in SC;
      (assert (U' : lockof (apcs sa a) = SyncProxyInv.LN -> alu sa = None);
       [intros L0; destruct U as [U|U]; auto; apply (SyncProxyInv.i_u _ I) in U; congruence|]);
      try (rewrite (U' LK) in SC);
      (eapply drained; [exact SC|reflexivity| |reflexivity]; apply alike_drained; auto).
  - assert (N : dr <> Some a) by (intros K; apply D in K; discriminate). clear D.
    destruct p; try discriminate DP; try discriminate Z; try discriminate H; cbn in H, SC, OK, LK.
    + (* I_Acq *)
      destruct (lw (F f)) eqn:W; [discriminate|]. destruct (lu (F f)) eqn:U; [discriminate|].
      injection H as <- <-. destruct (no_drain _ _ _ A W) as (-> & W' & U'). specialize (U' U).
      rewrite W', U' in SC. eapply one_move; [exact SC|reflexivity| |discriminate|reflexivity].
      rewrite upd_same. eapply alike_set; eauto; apply A.
    + rewrite (al_v _ _ _ A) in H.
      destruct (aval sa); injection H as <- <-; eapply one_move; eauto; reflexivity.
    + (* I_Upg *)
      injection H as <- <-. destruct (upgrader_settled _ _ _ _ I A LK N) as (-> & U & W).
      apply drain; auto. rewrite upd_same. apply alike_drain; auto. rewrite E. exact Logic.I.
    + rewrite (al_v _ _ _ A) in H.
      destruct (aval sa); injection H as <- <-; eapply one_move; eauto; reflexivity.
    + injection H as <- <-. eapply one_move; [exact SC|reflexivity| |auto|reflexivity].
      rewrite upd_same. now apply alike_value.
    + injection H as <- <-. eapply one_move; [exact SC|reflexivity| |auto|reflexivity].
      rewrite upd_same. now apply alike_flag.
    + (* I_Down *)
      injection H as <- <-. destruct (writer_settled _ _ _ _ I A LK) as (-> & W & U & R).
      eapply one_move; [exact SC|reflexivity| |auto|reflexivity].
      rewrite upd_same. eapply alike_set; eauto; apply A.
    + (* I_Done *)
      destruct (upgrader_settled _ _ _ _ I A LK N) as (-> & U & W).
      assert (NI : ~ In a (alr sa)) by (intros K; apply (SyncProxyInv.i_r _ I) in K; congruence).
      pose proof (al_l _ _ _ A) as (L1 & L2).
      destruct m; injection H as <- <-; (eapply one_move; [exact SC|reflexivity| |auto|reflexivity]);
        rewrite ?upd_same; auto;
        eapply alike_set; eauto; try apply A; cbn; try (constructor; [exact NI|apply A]);
        constructor; apply A.
    + injection H as <- <-. destruct (writer_settled _ _ _ _ I A LK) as (-> & W & U & R).
      pose proof (al_l _ _ _ A) as (L1 & L2).
      destruct m; (eapply one_move; [exact SC|reflexivity| |auto|reflexivity]; rewrite upd_same;
        eapply alike_set; eauto; apply A).
    + injection H as <- <-. destruct (writer_settled _ _ _ _ I A LK) as (-> & W & U & R).
      pose proof (al_l _ _ _ A) as (L1 & L2).
      eapply one_move; [exact SC|reflexivity| |auto|reflexivity]; rewrite upd_same.
      eapply alike_set; eauto; apply A.
    + (* R_Map *)
      rewrite (al_v _ _ _ A) in H. destruct (aval sa); injection H as <- <-;
        (eapply one_move; [exact SC|reflexivity| |auto|reflexivity]; rewrite ?upd_same; auto).
      apply alike_unlock_r; auto. now apply in_readers.
    + (* M_Upg *)
      injection H as <- <-. destruct (upgrader_settled _ _ _ _ I A LK N) as (-> & U & W).
      apply drain; auto. rewrite upd_same. apply alike_drain; auto. rewrite E. exact Logic.I.
    + (* M_Map *)
      destruct (writer_settled _ _ _ _ I A LK) as (-> & W & U & R).
      pose proof (al_l _ _ _ A) as (L1 & L2).
      rewrite (al_v _ _ _ A) in H. destruct (aval sa); injection H as <- <-;
        (eapply one_move; [exact SC|reflexivity| |auto|reflexivity]; rewrite ?upd_same; auto).
      eapply alike_set; eauto; apply A.
    + (* W_Acq *)
      destruct (lw (F f)) eqn:W; [discriminate|]. destruct (lu (F f)) eqn:U; [discriminate|].
      injection H as <- <-. destruct (no_drain _ _ _ A W) as (-> & W' & U'). specialize (U' U).
      apply drain; auto. rewrite upd_same. apply alike_drain; auto. rewrite E. exact Logic.I.
    + (* C_Acq *)
      destruct (lw (F f)) eqn:W; [discriminate|]. destruct (lu (F f)) eqn:U; [discriminate|].
      injection H as <- <-. destruct (no_drain _ _ _ A W) as (-> & W' & U'). specialize (U' U).
      apply drain; auto. rewrite upd_same. apply alike_drain; auto. rewrite E. exact Logic.I.
    + injection H as <- <-. eapply one_move; [exact SC|reflexivity| |auto|reflexivity].
      rewrite upd_same. now apply alike_flag.
    + injection H as <- <-. rewrite (al_v _ _ _ A).
      eapply one_move; [exact SC|reflexivity| |auto|reflexivity]. rewrite upd_same. now apply alike_value.
    + injection H as <- <-. destruct (writer_settled _ _ _ _ I A LK) as (-> & W & U & R).
      pose proof (al_l _ _ _ A) as (L1 & L2).
      eapply one_move; [exact SC|reflexivity| |auto|reflexivity]; rewrite upd_same.
      eapply alike_set; eauto; apply A.
    + injection H as <- <-. rewrite (al_f _ _ _ A).
      eapply one_move; [exact SC|reflexivity|auto|auto|reflexivity].
    + (* K_Acq *)
      destruct (lw (F f)) eqn:W; [discriminate|]. injection H as <- <-.
      destruct (no_drain _ _ _ A W) as (-> & W' & _). rewrite W' in SC.
      eapply one_move; [exact SC|reflexivity| |auto|reflexivity].
      rewrite upd_same. apply alike_lock_r; auto. now apply reader_free.
    + injection H as <- <-. rewrite (al_v _ _ _ A).
      eapply one_move; [exact SC|reflexivity|auto|auto|reflexivity].
    + injection H as <- <-. rewrite (al_f _ _ _ A).
      eapply one_move; [exact SC|reflexivity|auto|auto|reflexivity].
    + injection H as <- <-. rewrite B in SC. eapply one_move; [exact SC|reflexivity| |auto|reflexivity].
      rewrite upd_same. apply alike_unlock_r; auto. now apply in_readers.
    + (* D_Acq *)
      destruct (lw (F f)) eqn:W; [discriminate|]. injection H as <- <-.
      destruct (no_drain _ _ _ A W) as (-> & W' & _). rewrite W' in SC.
      eapply one_move; [exact SC|reflexivity| |auto|reflexivity].
      rewrite upd_same. apply alike_lock_r; auto. now apply reader_free.
    + injection H as <- <-. rewrite (al_v _ _ _ A).
      eapply one_move; [exact SC|reflexivity|auto|auto|reflexivity].
    + injection H as <- <-. eapply one_move; [exact SC|reflexivity| |auto|reflexivity].
      rewrite upd_same. apply alike_unlock_r; auto. now apply in_readers.
    + rewrite (al_v _ _ _ A) in H. destruct (aval sa); injection H as <- <-;
        (eapply one_move; [exact SC|reflexivity|auto|auto|reflexivity]).
    + injection H as <- <-. eapply one_move; [exact SC|reflexivity| |auto|reflexivity].
      rewrite upd_same. now apply alike_value.
    + injection H as <- <-. eapply one_move; [exact SC|reflexivity| |auto|reflexivity].
      rewrite upd_same. now apply alike_flag.
    + injection H as <- <-. rewrite (al_v _ _ _ A).
      eapply one_move; [exact SC|reflexivity| |auto|reflexivity]. rewrite upd_same. now apply alike_value.
    + injection H as <- <-. eapply one_move; [exact SC|reflexivity| |auto|reflexivity].
      rewrite upd_same. now apply alike_flag.
    + injection H as <- <-. rewrite (al_v _ _ _ A).
      eapply one_move; [exact SC|reflexivity| |auto|reflexivity]. rewrite upd_same. now apply alike_value.
    + injection H as <- <-. destruct h; cbn in SC, LK; [destruct OK; congruence| | |].
      * eapply one_move; [exact SC|reflexivity| |auto|reflexivity]; cbn [release]; rewrite upd_same.
        apply alike_unlock_r; auto. now apply in_readers.
      * destruct (writer_settled _ _ _ _ I A LK) as (-> & W & U & R).
        pose proof (al_l _ _ _ A) as (L1 & L2).
        eapply one_move; [exact SC|reflexivity| |auto|reflexivity]; cbn [release]; rewrite upd_same.
        eapply alike_set; eauto; apply A.
      * destruct (writer_settled _ _ _ _ I A LK) as (-> & W & U & R).
        pose proof (al_l _ _ _ A) as (L1 & L2).
        eapply one_move; [exact SC|reflexivity| |auto|reflexivity]; cbn [release]; rewrite upd_same.
        eapply alike_set; eauto; apply A.
Qed.

(** A step on another field leaves this one alone. *)
Lemma release_away F t g h f : g <> f -> release F t g h f = F f.
Proof. intros N. destruct h; cbn; auto; apply upd_other; auto. Qed.

Lemma pstep_away F t g p F' p' f : g <> f -> pc_avoids f p ->
  pstep F t g p = Some (F', p') -> F' f = F f /\ pc_avoids f p'.
Proof.
  intros N A H.
  destruct p; cbn in A, H; try discriminate H;
    repeat match type of H with context [match ?x with _ => _ end] => destruct x; try discriminate H end;
    injection H as <- <-;
    rewrite ?upd_other, ?release_away by auto; cbn; auto.
Qed.

(** ** Slots: what a thread has to do with the field *)

Inductive slot : Type :=
| SlCall (o : op nat) (p : apc) (d : bool)   (* a call in progress *)
| SlHeld (h : hold).                         (* a guard kept by user code *)

Definition fits (pend : aid -> op nat) (sa : ast) (dr : option aid) (x : slot) (a : aid) : Prop :=
  match x with
  | SlCall o p d => apcs sa a = p /\ pend a = o /\ (dr = Some a <-> d = true)
  | SlHeld h => apcs sa a = aHold h
  end.

Section Field.
  Variable f : fid.

  Definition held_slots (l : guards) : list slot :=
    flat_map (fun x => if Nat.eqb (fst x) f then [SlHeld (snd x)] else []) l.

  Definition op_of (c : call) : op nat := match c with Proxy o => o | _ => ORead end.

  Fixpoint frame_slots (cs : list call) (st : list frame) : list slot :=
    match cs, st with
    | c :: cs', fr :: st' =>
        (if Nat.eqb (fr_field fr) f
         then [SlCall (op_of c) (SyncProxyModel.RI_Build (trm (fr_mode fr))) false] else [])
        ++ held_slots (fr_held fr) ++ frame_slots cs' st'
    | _, _ => []
    end.

  Definition slots (cs : list call) (th : thread) : list slot :=
    match code_of th, cs with
    | User _, _ => held_slots (held th) ++ frame_slots cs (stack th)
    | Call g p _, c :: cs' =>
        (if Nat.eqb g f then [SlCall (op_of c) (tr p) (drains p)] else []) ++
        held_slots (held th) ++ frame_slots cs' (stack th)
    | Call _ _ _, [] => []
    end.

  Definition call_ok (g : fid) (c : call) : Prop := g = f -> exists o, c = Proxy o.

  Definition frame_ok (c : call) (fr : frame) : Prop :=
    (forall r, lazily f (fr_cont fr r)) /\ call_ok (fr_field fr) c.

  Definition thread_ok (cs : list call) (th : thread) : Prop :=
    match code_of th with
    | User p => lazily f p /\ Forall2 frame_ok cs (stack th)
    | Call g p k =>
        (forall r, lazily f (k r)) /\ (g = f -> lazy_pc p = true) /\ (g <> f -> pc_avoids f p) /\
        exists c cs', cs = c :: cs' /\ call_ok g c /\ Forall2 frame_ok cs' (stack th)
    end.

  (** ** Simulation of one step of one thread *)

  Definition local (t : tid) (cs : list call) (th : thread) (sa : ast) (dr : option aid)
    (pend : aid -> op nat) (n : nat) (A : list aid) : Prop :=
    thread_ok cs th /\ Forall2 (fits pend sa dr) (slots cs th) A /\ NoDup A /\
    (forall a, In a A -> tag a = t /\ age a < n).

  Definition field_ok (c : cell) (sa : ast) (dr : option aid) (n : nat) : Prop :=
    ainv sa /\ alike c sa dr /\ forall a, n <= age a -> apcs sa a = aHold HNone.

  Definition simulated (t : tid) (cs' : list call) (F' : cells) (th' : thread) (N : list note) (sa : ast)
    (dr : option aid) (pend : aid -> op nat) (n : nat) : Prop :=
    exists l sa' dr' h n' A', arun sa l = Some (sa', h) /\ notes tag pend h = N /\ n <= n' /\
      local t cs' th' sa' dr' (last_calls pend h) n' A' /\ field_ok (F' f) sa' dr' n' /\
      (forall b, tag b <> t -> apcs sa' b = apcs sa b /\ last_calls pend h b = pend b /\
                               (dr' = Some b <-> dr = Some b)).

  Lemma fits_frame pend pend' sa sa' dr dr' xs A :
    Forall2 (fits pend sa dr) xs A ->
    (forall a, In a A -> apcs sa' a = apcs sa a /\ pend' a = pend a /\ (dr' = Some a <-> dr = Some a)) ->
    Forall2 (fits pend' sa' dr') xs A.
  Proof.
    induction 1 as [|x a xs A H1 _ IH]; intros H; constructor.
    - destruct (H a (or_introl eq_refl)) as (E1 & E2 & E3).
      destruct x; cbn in *; rewrite ?E1, ?E2, ?E3; auto.
    - apply IH. intros b Hb. apply H. now right.
  Qed.

  Lemma arun_inv sa l sa' h : ainv sa -> arun sa l = Some (sa', h) -> ainv sa'.
  Proof. intros I R. exact (SyncProxyInv.inv_run _ _ _ _ I R). Qed.

  Lemma sim_same t cs cs' th th' F F' N sa dr pend n A :
    local t cs th sa dr pend n A -> field_ok (F f) sa dr n -> N = [] ->
    slots cs' th' = slots cs th -> thread_ok cs' th' -> alike (F' f) sa dr ->
    simulated t cs' F' th' N sa dr pend n.
  Proof.
    intros (_ & L2 & L3 & L4) (K1 & _ & K3) -> S T Al.
    exists [], sa, dr, [], n, A. cbn. split; auto. split; auto. split; auto.
    split; [split; [|rewrite S]; auto|]. split; [split; auto|tauto].
  Qed.

  Lemma sim_head t cs cs' th th' F F' N x rest ys sa dr dr' pend n A l sa' h :
    local t cs th sa dr pend n A -> field_ok (F f) sa dr n ->
    slots cs th = x :: rest -> slots cs' th' = ys ++ rest -> thread_ok cs' th' ->
    forall a, hd_error A = Some a ->
    (ys = [] \/ exists y, ys = [y] /\ fits (last_calls pend h) sa' dr' y a) ->
    arun sa l = Some (sa', h) -> alike (F' f) sa' dr' ->
    (forall b, b <> a -> apcs sa' b = apcs sa b) ->
    (forall b, b <> a -> (dr' = Some b <-> dr = Some b)) ->
    (forall b, b <> a -> last_calls pend h b = pend b) ->
    notes tag pend h = N ->
    simulated t cs' F' th' N sa dr pend n.
  Proof.
    intros (_ & L2 & L3 & L4) (K1 & _ & K3) S S' T a HA Y R Al O Od P NN.
    rewrite S in L2. inversion L2 as [|x0 a0 xs A1 M1 M2]; subst. cbn in HA.
    injection HA as ->. inversion L3 as [|? ? NI ND]; subst.
    destruct (L4 a (or_introl eq_refl)) as [Ta Ga].
    assert (M2' : Forall2 (fits (last_calls pend h) sa' dr') rest A1).
    { eapply fits_frame; [exact M2|]. intros b Hb. assert (b <> a) by (intros ->; auto). split; auto. }
    assert (Fo : field_ok (F' f) sa' dr' n).
    { split; [exact (arun_inv _ _ _ _ K1 R)|]. split; auto. intros b Hb. rewrite O; auto. intros ->. lia. }
    assert (Oo : forall b, tag b <> t -> apcs sa' b = apcs sa b /\ last_calls pend h b = pend b /\
                                         (dr' = Some b <-> dr = Some b)).
    { intros b Hb. assert (b <> a) by (intros ->; auto). split; auto. }
    destruct Y as [-> |(y & -> & Fy)].
    - exists l, sa', dr', h, n, A1.
      split; auto. split; auto. split; auto. split; [|split; auto].
      split; auto. split; [now rewrite S'|]. split; auto. intros b Hb. apply L4. now right.
    - exists l, sa', dr', h, n, (a :: A1).
      split; auto. split; auto. split; auto. split; [|split; auto].
      split; auto. split; [rewrite S'; cbn; constructor; auto|]. split; auto.
  Qed.

  Lemma sim_new t cs cs' th th' F F' N o p sa dr pend n A :
    local t cs th sa dr pend n A -> field_ok (F f) sa dr n ->
    slots cs' th' = SlCall o p false :: slots cs th -> thread_ok cs' th' -> F' f = F f ->
    SyncProxyModel.enter HNone o = Some p ->
    (if noted o then [NCall t o] else []) = N ->
    simulated t cs' F' th' N sa dr pend n.
  Proof.
    intros (_ & L2 & L3 & L4) (K1 & K2 & K3) S T E En <-.
    pose (a := to_nat (t, n)).
    assert (Ta : tag a = t) by (unfold tag, a; now rewrite cancel_of_to).
    assert (Ga : age a = n) by (unfold age, a; now rewrite cancel_of_to).
    clearbody a.
    assert (Ha : apcs sa a = aHold HNone) by (apply K3; lia).
    assert (Dr : dr <> Some a) by (apply (not_draining _ _ _ _ K2); rewrite Ha; auto).
    assert (R : arun sa [SyncProxyModel.ACall a o] =
                Some (SyncProxyModel.set_pc sa a p, [EvCall a o])).
    { cbn. rewrite Ha, En. reflexivity. }
    assert (NI : ~ In a A) by (intros H; apply L4 in H; lia).
    exists [SyncProxyModel.ACall a o], (SyncProxyModel.set_pc sa a p), dr, [EvCall a o], (Datatypes.S n), (a :: A).
    split; auto. split; [cbn; now rewrite Ta, app_nil_r|]. split; [lia|].
    split; [|split].
    - split; auto. rewrite S. split; [constructor|split].
      + split; cbn; [apply aupd_same|]. unfold mark. rewrite Nat.eqb_refl. split; auto.
        split; [contradiction|discriminate].
      + eapply fits_frame; [exact L2|]. intros b Hb. assert (b <> a) by (intros ->; auto). cbn.
        rewrite aupd_other by auto. unfold mark. destruct (Nat.eqb_spec b a); [congruence|tauto].
      + now constructor.
      + intros b [<-|Hb]; [lia|]. apply L4 in Hb. lia.
    - split; [exact (arun_inv _ _ _ _ K1 R)|]. split; [rewrite E; now apply alike_pc|].
      intros b Hb. cbn. rewrite aupd_other; [apply K3; lia|]. intros ->. lia.
    - intros b Hb. assert (b <> a) by (intros ->; auto). cbn. rewrite aupd_other by auto.
      unfold mark. destruct (Nat.eqb_spec b a); [congruence|tauto].
  Qed.

  (** Dropping a guard. *)
  Lemma drop_guard (F : cells) sa dr pend a t h :
    ainv sa -> alike (F f) sa dr -> tag a = t -> apcs sa a = aHold h ->
    exists l sa' hs, arun sa l = Some (sa', hs) /\ alike (release F t f h f) sa' dr /\
      (forall b, b <> a -> apcs sa' b = apcs sa b) /\
      (forall b, b <> a -> last_calls pend hs b = pend b) /\
      notes tag pend hs = [].
  Proof.
    intros I A <- D.
    assert (N : dr <> Some a) by (apply (not_draining _ _ _ _ A); rewrite D; auto).
    assert (LK : lockof (apcs sa a) = SyncProxyInv.lk_hold h) by now rewrite D.
    destruct h.
    - exists [], sa, []. cbn. auto.
    - eexists [SyncProxyModel.ACall a GDrop; SyncProxyModel.AStep a; SyncProxyModel.AStep a], _, _.
      split; [cbn; rewrite D; cbn; unfold SyncProxyModel.step_code; cbn; rewrite ?aupd_same; cbn;
              rewrite ?aupd_same; cbn; reflexivity|].
      cbn [release]. rewrite upd_same. split; [|split; [|split]].
      + apply alike_pc; auto. apply alike_pc; auto.
        apply (alike_unlock_r _ (SyncProxyModel.set_pc sa a (SyncProxyModel.Drop HR)) dr a);
          [now apply alike_pc|]. change (In a (alr sa)). now apply in_readers.
      + intros b Hb. cbn. rewrite !aupd_other; auto.
      + intros b Hb. cbn. unfold mark. destruct (Nat.eqb_spec b a); congruence.
      + cbn. unfold mark. rewrite Nat.eqb_refl. reflexivity.
    - destruct (writer_settled _ _ _ _ I A LK) as (-> & W & U & R).
      pose proof (al_l _ _ _ A) as (L1 & L2).
      eexists [SyncProxyModel.ACall a GDrop; SyncProxyModel.AStep a; SyncProxyModel.AStep a], _, _.
      split; [cbn; rewrite D; cbn; unfold SyncProxyModel.step_code; cbn; rewrite ?aupd_same; cbn;
              rewrite ?aupd_same; cbn; reflexivity|].
      cbn [release]. rewrite upd_same. split; [|split; [|split]].
      + apply alike_pc; auto. apply alike_pc; auto. eapply (alike_set _ _ None); cbn; eauto; try apply A.
        now apply alike_pc.
      + intros b Hb. cbn. rewrite !aupd_other; auto.
      + intros b Hb. cbn. unfold mark. destruct (Nat.eqb_spec b a); congruence.
      + cbn. unfold mark. rewrite Nat.eqb_refl. reflexivity.
    - destruct (writer_settled _ _ _ _ I A LK) as (-> & W & U & R).
      pose proof (al_l _ _ _ A) as (L1 & L2).
      eexists [SyncProxyModel.ACall a GDrop; SyncProxyModel.AStep a; SyncProxyModel.AStep a], _, _.
      split; [cbn; rewrite D; cbn; unfold SyncProxyModel.step_code; cbn; rewrite ?aupd_same; cbn;
              rewrite ?aupd_same; cbn; reflexivity|].
      cbn [release]. rewrite upd_same. split; [|split; [|split]].
      + apply alike_pc; auto. apply alike_pc; auto. eapply (alike_set _ _ None); cbn; eauto; try apply A.
        now apply alike_pc.
      + intros b Hb. cbn. rewrite !aupd_other; auto.
      + intros b Hb. cbn. unfold mark. destruct (Nat.eqb_spec b a); congruence.
      + cbn. unfold mark. rewrite Nat.eqb_refl. reflexivity.
  Qed.

  Lemma take_guard_slots g l h l' : take_guard g l = Some (h, l') ->
    held_slots l = (if Nat.eqb g f then [SlHeld h] else []) ++ held_slots l'.
  Proof.
    revert h l'. induction l as [|[x hx] l IH]; cbn [take_guard]; intros h l'; [discriminate|].
    change (held_slots ((x, hx) :: l))
      with ((if Nat.eqb x f then [SlHeld hx] else []) ++ held_slots l).
    destruct (Nat.eqb_spec x g) as [->|N].
    - intros [= <- <-]. reflexivity.
    - destruct (take_guard g l) as [[h1 l1]|] eqn:E; [|discriminate].
      intros [= <- <-]. rewrite (IH _ _ eq_refl).
      change (held_slots ((x, hx) :: l1))
        with ((if Nat.eqb x f then [SlHeld hx] else []) ++ held_slots l1).
      destruct (Nat.eqb_spec x f) as [->|N1]; destruct (Nat.eqb_spec g f) as [->|N2]; auto. congruence.
  Qed.

  Lemma enter_same o p : enter (Proxy o) = Some p ->
    SyncProxyModel.enter HNone o = Some (tr p) /\ lazy_pc p = true /\ drains p = false.
  Proof. destruct o; cbn; try discriminate; intros [= <-]; cbn; auto. Qed.

  Lemma enter_guard_same h o p : enter_guard h (Proxy o) = Some p ->
    SyncProxyModel.enter h o = Some (tr p) /\ lazy_pc p = true /\ drains p = false.
  Proof. destruct h, o; cbn; try discriminate; intros [= <-]; cbn; auto. Qed.

  Lemma enter_avoids g c p : enter c = Some p ->
    match c with Proxy _ => True | LockRead | LockWrite => g <> f | EqWith h => g <> f /\ h <> f end ->
    g <> f -> pc_avoids f p.
  Proof.
    destruct c as [o| | |h]; cbn; try (intros [= <-]; cbn; tauto).
    destruct o; cbn; try discriminate; intros [= <-]; cbn; auto.
  Qed.

  Lemma enter_guard_avoids h c p : enter_guard h c = Some p -> pc_avoids f p.
  Proof. destruct h, c as [o| | |]; try destruct o; cbn; try discriminate; intros [= <-]; cbn; auto. Qed.

  Lemma hd_of t cs th sa dr pend n A x rest : local t cs th sa dr pend n A -> slots cs th = x :: rest ->
    exists a, hd_error A = Some a /\ fits pend sa dr x a /\ tag a = t.
  Proof.
    intros (_ & L2 & _ & L4) E. rewrite E in L2. inversion L2; subst. eexists. split; [reflexivity|].
    split; auto. apply L4. now left.
  Qed.

  Variable builder : fid -> nat -> prog.
  Hypothesis builders_lazily : forall g n, lazily f (builder g n).

  Lemma tstep_sim t m cs th F F' th' ev sa dr pend n A :
    local t (cs t) th sa dr pend n A -> field_ok (F f) sa dr n ->
    tstep builder F t m th = Some (F', th', ev) ->
    simulated t (calls_after cs t th t) F' th' (thread_note f cs t th ++ flat_map (event_note f) ev)
      sa dr pend n.
  Proof.
    intros L K H. pose proof L as (T1 & _). pose proof K as (K1 & K2 & K3).
    unfold tstep in H. destruct th as [c hd st]. unfold thread_ok in T1; cbn [code_of held stack] in *.
    unfold calls_after, thread_note; cbn [code_of].
    destruct c as [[o|g c k]|g p k].
    - (* the end of a piece of user code *)
      destruct T1 as [_ T2]. cbn [app].
      destruct hd as [|[g h] rest].
      + destruct st as [|fr st]; [discriminate|]. injection H as <- <- <-.
        inversion T2 as [|c0 ? cs0 ? [C1 C2] T3 Ecs]; subst. rewrite <- Ecs in *. cbn [flat_map event_note].
        rewrite app_nil_r.
        destruct (Nat.eqb_spec (fr_field fr) f) as [E|E].
        * destruct (C2 E) as (o1 & ->).
          assert (S0 : slots (Proxy o1 :: cs0) (mkthread (User (PEnd o)) [] (fr :: st)) =
             SlCall o1 (SyncProxyModel.RI_Build (trm (fr_mode fr))) false ::
             held_slots (fr_held fr) ++ frame_slots cs0 st).
          { unfold slots; cbn. rewrite E, Nat.eqb_refl. reflexivity. }
          destruct (hd_of _ _ _ _ _ _ _ _ _ _ L S0) as (a & Ha & (Fa & Pa & Da) & Ta).
          assert (N : dr <> Some a) by (intros X; apply Da in X; discriminate).
          eapply (sim_head t _ _ _ _ F F) with (a := a) (dr' := dr)
            (ys := [SlCall o1 (tr (after_build (fr_mode fr) o)) false])
            (l := [SyncProxyModel.ABuilt a o]);
            [exact L|exact K|exact S0| | |exact Ha| |cbn; rewrite Fa; reflexivity| | | | | ].
          { unfold slots; cbn. rewrite E, Nat.eqb_refl.
            replace (drains (after_build (fr_mode fr) o)) with false by (destruct o; reflexivity). reflexivity. }
          { unfold thread_ok; cbn. split; auto. split; [intros _; destruct o; reflexivity|].
            split; [congruence|]. exists (Proxy o1), cs0. split; auto. }
          { right. eexists. split; [reflexivity|]. cbn. split; [|split; [exact Pa|]].
            - rewrite aupd_same. destruct o; reflexivity.
            - split; [contradiction|discriminate]. }
          { now apply alike_pc. }
          { intros b Hb. cbn. now apply aupd_other. }
          { tauto. }
          { reflexivity. }
          { cbn. now rewrite Ta. }
        * eapply (sim_same t _ _ _ _ F F); eauto.
          { unfold slots; cbn. destruct (Nat.eqb_spec (fr_field fr) f); [contradiction|reflexivity]. }
          { unfold thread_ok; cbn. split; auto. split; [congruence|]. split; [intros _; destruct o; exact Logic.I|].
            exists c0, cs0. auto. }
      + injection H as <- <- <-. cbn [flat_map].
        destruct (Nat.eqb_spec g f) as [->|E].
        * assert (S0 : slots (cs t) (mkthread (User (PEnd o)) ((f, h) :: rest) st) =
             SlHeld h :: held_slots rest ++ frame_slots (cs t) st).
          { unfold slots; cbn. now rewrite Nat.eqb_refl. }
          destruct (hd_of _ _ _ _ _ _ _ _ _ _ L S0) as (a & Ha & Fa & Ta).
          destruct (drop_guard F sa dr pend a t h K1 K2 Ta Fa) as (l & sa' & hs & R & Al & O & P & NN).
          eapply (sim_head t _ _ _ _ F _ _ _ _ [] sa dr dr); eauto; [|tauto].
          unfold thread_ok; cbn. auto.
        * eapply (sim_same t _ _ _ _ F); eauto.
          { unfold slots; cbn. destruct (Nat.eqb_spec g f); [contradiction|reflexivity]. }
          { unfold thread_ok; cbn. auto. }
          { rewrite release_away by auto. auto. }
    - (* a call *)
      destruct T1 as [[C1 C2] T2]. unfold set_calls. rewrite Nat.eqb_refl.
      destruct (through_guard c) eqn:G.
      + destruct (take_guard g hd) as [[h l]|] eqn:TG; [|discriminate].
        destruct (enter_guard h c) as [p|] eqn:EG; [|discriminate]. injection H as <- <- <-.
        apply take_guard_slots in TG.
        destruct c as [o| | |]; try discriminate G.
        destruct (enter_guard_same _ _ _ EG) as (EG' & Z & KD).
        cbn [flat_map]. rewrite app_nil_r.
        destruct (Nat.eqb_spec g f) as [->|E].
        * cbn [andb]. cbn in TG.
          assert (S0 : slots (cs t) (mkthread (User (PCall f (Proxy o) k)) hd st) =
             SlHeld h :: held_slots l ++ frame_slots (cs t) st).
          { unfold slots; cbn [code_of held stack]. rewrite TG. reflexivity. }
          destruct (hd_of _ _ _ _ _ _ _ _ _ _ L S0) as (a & Ha & Fa & Ta). cbn in Fa.
          assert (N : dr <> Some a) by (apply (not_draining _ _ _ _ K2); rewrite Fa; auto).
          eapply (sim_head t _ _ _ _ F F) with (a := a) (dr' := dr) (ys := [SlCall o (tr p) false])
            (l := [SyncProxyModel.ACall a o]);
            [exact L|exact K|exact S0| | |exact Ha| |cbn; rewrite Fa, EG'; reflexivity| | | | | ].
          { unfold slots; cbn. rewrite Nat.eqb_refl, KD. reflexivity. }
          { unfold thread_ok; cbn. split; auto. split; auto. split; [congruence|].
            exists (Proxy o), (cs t). unfold call_ok. eauto. }
          { right. eexists. split; [reflexivity|]. cbn. rewrite aupd_same.
            unfold mark. rewrite Nat.eqb_refl. split; auto. split; auto. split; [contradiction|discriminate]. }
          { now apply alike_pc. }
          { intros b Hb. cbn. now apply aupd_other. }
          { tauto. }
          { intros b Hb. cbn. unfold mark. destruct (Nat.eqb_spec b a); [congruence|auto]. }
          { cbn. now rewrite Ta, app_nil_r. }
        * eapply (sim_same t _ _ _ _ F F); eauto.
          { unfold slots; cbn [code_of held stack]. rewrite TG.
            destruct (Nat.eqb_spec g f); [contradiction|reflexivity]. }
          { unfold thread_ok; cbn. split; auto. split; [congruence|]. split; [eauto using enter_guard_avoids|].
            exists (Proxy o), (cs t). unfold call_ok. split; auto. split; [congruence|auto]. }
      + destruct (enter c) as [p|] eqn:EN; [|discriminate]. injection H as <- <- <-.
        cbn [flat_map]. rewrite app_nil_r.
        destruct (Nat.eqb_spec g f) as [->|E].
        * destruct c as [o| | |h]; try (destruct C1; congruence); try congruence.
          destruct (enter_same _ _ EN) as (EN' & Z & KD).
          eapply (sim_new t _ _ _ _ F F _ o (tr p)); eauto.
          { unfold slots; cbn. rewrite Nat.eqb_refl, KD. reflexivity. }
          { unfold thread_ok; cbn. split; auto. split; auto. split; [congruence|].
            exists (Proxy o), (cs t). unfold call_ok. eauto. }
        * eapply (sim_same t _ _ _ _ F F); eauto.
          { destruct c; auto. }
          { unfold slots; cbn. destruct (Nat.eqb_spec g f); [contradiction|reflexivity]. }
          { unfold thread_ok; cbn. split; auto. split; [congruence|]. split; [eauto using enter_avoids|].
            exists c, (cs t). unfold call_ok. split; auto. split; [congruence|auto]. }
    - (* a call in progress *)
      destruct T1 as (C1 & C2 & C3 & c & cs0 & Ecs & C4 & T2). rewrite Ecs in *.
      destruct (Nat.eqb_spec g f) as [->|E].
      + destruct (C4 eq_refl) as (o & ->). specialize (C2 eq_refl).
        assert (S0 : slots (Proxy o :: cs0) (mkthread (Call f p k) hd st) =
             SlCall o (tr p) (drains p) :: held_slots hd ++ frame_slots cs0 st).
        { unfold slots; cbn. rewrite Nat.eqb_refl. reflexivity. }
        destruct (hd_of _ _ _ _ _ _ _ _ _ _ L S0) as (a & Ha & (Fa & Pa & Da) & Ta).
        assert (STEP :
             match pstep F t f p with
             | Some (F'0, p') => Some (F'0, mkthread (Call f p' k) hd st, @nil bevent)
             | None => None
             end = Some (F', th', ev) ->
             simulated t (Proxy o :: cs0) F' th' (flat_map (event_note f) ev) sa dr pend n).
        { intros HS. destruct (pstep F t f p) as [[F1 p1]|] eqn:PS; [|discriminate].
          injection HS as <- <- <-.
          destruct (pstep_field f F t p F1 p1 sa dr a K1 K2 Ta Fa Da C2 PS)
            as (Z1 & l & sa' & dr' & R & (Al & Pc & O & D1 & D2)).
          eapply (sim_head t _ _ _ _ F F1) with (a := a) (ys := [SlCall o (tr p1) (drains p1)]); eauto.
          - unfold slots; cbn. rewrite Nat.eqb_refl. reflexivity.
          - unfold thread_ok; cbn. split; auto. split; auto. split; [congruence|].
            exists (Proxy o), cs0. auto.
          - right. eexists. split; [reflexivity|]. split; auto. }
        destruct p; rewrite ?Ecs; try (apply STEP; exact H); clear STEP.
        * (* return *)
          injection H as <- <- <-. unfold set_calls. rewrite Nat.eqb_refl. cbn [tl].
          cbn [andb flat_map]. rewrite app_nil_r.
          assert (N : dr <> Some a) by (intros X; apply Da in X; discriminate).
          eapply (sim_head t _ _ _ _ F F) with (a := a) (dr' := dr)
            (ys := match h with HNone => [] | _ => [SlHeld h] end)
            (l := [SyncProxyModel.AStep a]);
            [exact L|exact K|exact S0| | |exact Ha| |apply one_step; unfold SyncProxyModel.step_code; rewrite Fa; reflexivity| | | | | ].
          { unfold slots. destruct h; cbn; rewrite ?Nat.eqb_refl; reflexivity. }
          { unfold thread_ok; cbn. split; auto. }
          { destruct h; auto; right; (eexists; split; [reflexivity|]; cbn; now rewrite aupd_same). }
          { now apply alike_pc. }
          { intros b Hb. cbn. now apply aupd_other. }
          { tauto. }
          { reflexivity. }
          { cbn. rewrite Pa, Ta, app_nil_r. reflexivity. }
        * (* the builder starts *)
          injection H as <- <- <-. cbn [app flat_map event_note]. rewrite Nat.eqb_refl, app_nil_r.
          assert (N : dr <> Some a) by (intros X; apply Da in X; discriminate).
          eapply (sim_head t _ _ _ _ F F) with (a := a) (dr' := dr)
            (ys := [SlCall o (SyncProxyModel.RI_Build (trm m0)) false])
            (l := [SyncProxyModel.AStep a]);
            [exact L|exact K|exact S0| | |exact Ha| |apply one_step; unfold SyncProxyModel.step_code; rewrite Fa; cbn;
              rewrite (SyncProxyInv.i_b _ K1); reflexivity| | | | | ].
          { unfold slots; cbn. rewrite Nat.eqb_refl. reflexivity. }
          { unfold thread_ok; cbn. split; [apply builders_lazily|]. constructor; auto. split; auto. }
          { right. eexists. split; [reflexivity|]. cbn. rewrite aupd_same. split; auto. }
          { now apply alike_pc. }
          { intros b Hb. cbn. now apply aupd_other. }
          { tauto. }
          { reflexivity. }
          { cbn. now rewrite Ta. }
      + clear C2. specialize (C3 E).
        assert (GF : Nat.eqb g f = false) by now apply Nat.eqb_neq.
        assert (STEP : match pstep F t g p with
             | Some (F'0, p') => Some (F'0, mkthread (Call g p' k) hd st, @nil bevent)
             | None => None
             end = Some (F', th', ev) ->
             simulated t (c :: cs0) F' th' (flat_map (event_note f) ev) sa dr pend n).
        { intros HS. destruct (pstep F t g p) as [[F1 p1]|] eqn:PS; [|discriminate].
          injection HS as <- <- <-.
          destruct (pstep_away _ _ _ _ _ _ _ E C3 PS) as [EF C3'].
          eapply (sim_same t _ _ _ _ F F1); eauto.
          - unfold slots; cbn. now rewrite GF.
          - unfold thread_ok; cbn. split; auto. split; [congruence|]. split; auto.
            exists c, cs0. auto.
          - now rewrite EF. }
        destruct p; rewrite ?Ecs; try (apply STEP; exact H); clear STEP.
        * injection H as <- <- <-. unfold set_calls. rewrite Nat.eqb_refl. cbn [tl].
          eapply (sim_same t _ _ _ _ F F); eauto.
          { cbn. destruct c; auto. }
          { unfold slots; cbn. rewrite GF. destruct h; cbn; rewrite ?GF; reflexivity. }
          { unfold thread_ok; cbn. auto. }
        * injection H as <- <- <-. eapply (sim_same t _ _ _ _ F F); eauto.
          { cbn. now rewrite GF. }
          { unfold slots; cbn. now rewrite GF. }
          { unfold thread_ok; cbn. split; [apply builders_lazily|]. constructor; auto. split; auto. }
  Qed.

  (** ** Runs *)

  Definition matches (cs : calls) (s : sys) (sa : ast) (dr : option aid) (pend : aid -> op nat) (n : nat) : Prop :=
    (forall t th, nth_error (threads s) t = Some th -> exists A, local t (cs t) th sa dr pend n A) /\
    field_ok (fields s f) sa dr n.

  Lemma arun_app sa l1 sa1 h1 l2 sa2 h2 :
    arun sa l1 = Some (sa1, h1) -> arun sa1 l2 = Some (sa2, h2) ->
    arun sa (l1 ++ l2) = Some (sa2, h1 ++ h2).
  Proof.
    revert sa h1. induction l1 as [|x l1 IH]; cbn; intros sa h1.
    - intros [= -> <-]. auto.
    - destruct (SyncProxyModel.step sa x) as [[s1 t1]|]; [|discriminate].
      destruct (arun s1 l1) as [[s2 t2]|] eqn:E; [|discriminate].
      intros [= -> <-] R. rewrite (IH _ _ E R). now rewrite app_assoc.
  Qed.
  Lemma notes_app h1 : forall pend h2,
    notes tag pend (h1 ++ h2) = notes tag pend h1 ++ notes tag (last_calls pend h1) h2.
  Proof.
    induction h1 as [|e h1 IH]; intros pend h2; cbn; auto.
    destruct e; cbn; rewrite IH, ?app_assoc; auto.
  Qed.
  Lemma last_calls_app h1 : forall pend h2,
    last_calls pend (h1 ++ h2) = last_calls (last_calls pend h1) h2.
  Proof. induction h1 as [|e h1 IH]; intros pend h2; cbn; auto. destruct e; cbn; apply IH. Qed.

  Lemma nth_set_same {X} (l : list X) i x y : nth_error l i = Some y -> nth_error (set_nth i l x) i = Some x.
  Proof. revert i. induction l as [|z l IH]; intros [|i]; cbn; try discriminate; auto. Qed.
  Lemma nth_set_other {X} (l : list X) i j x : i <> j -> nth_error (set_nth i l x) j = nth_error l j.
  Proof. revert i j. induction l as [|z l IH]; intros [|i] [|j] N; cbn; auto; try congruence. Qed.

  Lemma calls_after_other cs t th u : u <> t -> calls_after cs t th u = cs u.
  Proof.
    intros N. unfold calls_after, set_calls.
    destruct (code_of th) as [[?|? ? ?]|? [] ?]; auto; destruct (Nat.eqb_spec u t); congruence.
  Qed.

  Lemma step_sim cs s a s' ev sa dr pend n : matches cs s sa dr pend n ->
    step builder s a = Some (s', ev) ->
    exists th, nth_error (threads s) (fst a) = Some th /\
    exists l sa' dr' h n', arun sa l = Some (sa', h) /\
      matches (calls_after cs (fst a) th) s' sa' dr' (last_calls pend h) n' /\
      notes tag pend h = thread_note f cs (fst a) th ++ flat_map (event_note f) ev.
  Proof.
    intros [M K] H. unfold step in H.
    destruct (nth_error (threads s) (fst a)) as [th|] eqn:Et; [|discriminate]. exists th. split; auto.
    destruct (tstep builder (fields s) (fst a) (snd a) th) as [[[F' th'] ev']|] eqn:Ea; [|discriminate].
    injection H as <- <-. destruct (M _ _ Et) as [A L].
    destruct (tstep_sim _ _ _ _ _ _ _ _ _ _ _ _ _ L K Ea)
      as (l & sa' & dr' & h & n' & A' & R & N & Le & L' & K' & O).
    exists l, sa', dr', h, n'. split; auto. split; [|auto]. split; auto. cbn.
    intros u thu Hu. destruct (Nat.eq_dec (fst a) u) as [<-|D].
    - erewrite nth_set_same in Hu by eauto. injection Hu as <-. eauto.
    - rewrite nth_set_other in Hu by auto. destruct (M _ _ Hu) as [Au (U1 & U2 & U3 & U4)].
      rewrite calls_after_other by auto.
      exists Au. split; auto. split; [|split; auto].
      + eapply fits_frame; [exact U2|]. intros b Hb. apply O. destruct (U4 b Hb). congruence.
      + intros b Hb. destruct (U4 b Hb). split; auto. lia.
  Qed.

  Lemma run_sim l : forall cs s s' ev sa dr pend n, matches cs s sa dr pend n ->
    run builder s l = Some (s', ev) ->
    exists la sa' dr' h n' cs', arun sa la = Some (sa', h) /\
      matches cs' s' sa' dr' (last_calls pend h) n' /\
      notes tag pend h = story builder f cs s l.
  Proof.
    induction l as [|a l IH]; intros cs s s' ev sa dr pend n M H; cbn [run] in H.
    - injection H as <- <-. exists [], sa, dr, [], n, cs. cbn. auto.
    - destruct (step builder s a) as [[s1 e1]|] eqn:E; [|discriminate].
      destruct (run builder s1 l) as [[s2 e2]|] eqn:E2; [|discriminate].
      injection H as <- <-.
      destruct (step_sim _ _ _ _ _ _ _ _ _ M E) as (th & Et & la & sa1 & dr1 & h1 & n1 & R1 & M1 & N1).
      destruct (IH _ _ _ _ _ _ _ _ M1 E2) as (lb & sa2 & dr2 & h2 & n2 & cs2 & R2 & M2 & N2).
      exists (la ++ lb), sa2, dr2, (h1 ++ h2), n2, cs2. split; [exact (arun_app _ _ _ _ _ _ _ R1 R2)|].
      split; [now rewrite last_calls_app|].
      rewrite notes_app, N1, N2. cbn [story]. rewrite Et, E. now rewrite app_assoc.
  Qed.

  Lemma matches_start v0 ps : Forall (lazily f) ps ->
    matches nobody_calls (start v0 ps) (SyncProxyModel.init (v0 f)) None no_calls 0.
  Proof.
    intros P. split.
    - intros t th H. unfold start in H. cbn in H. rewrite nth_error_map in H.
      destruct (nth_error ps t) as [p|] eqn:E; [|discriminate]. injection H as <-.
      exists []. split; [|split; [constructor|split; [constructor|intros a []]]].
      split; [|constructor]. cbn. rewrite Forall_forall in P. apply P. eapply nth_error_In; eauto.
    - split; [apply SyncProxyInv.inv_init|]. split; [|reflexivity].
      constructor; cbn; auto. constructor.
  Qed.

  Theorem field_run v0 ps l s ev : Forall (lazily f) ps ->
    run builder (start v0 ps) l = Some (s, ev) ->
    exists la sa dr h, arun (SyncProxyModel.init (v0 f)) la = Some (sa, h) /\
      alike (fields s f) sa dr /\
      notes tag no_calls h = story builder f nobody_calls (start v0 ps) l.
  Proof.
    intros P R. destruct (run_sim _ _ _ _ _ _ _ _ _ (matches_start v0 ps P) R)
      as (la & sa & dr & h & n & cs & R1 & (_ & _ & K & _) & N). eauto 10.
  Qed.

  (** ** Guards keep writers out *)

  Lemma release_value F t g h x : value (release F t g h x) = value (F x) /\ flag (release F t g h x) = flag (F x).
  Proof.
    destruct h; cbn; auto; unfold upd; destruct (Nat.eqb_spec x g) as [->|]; auto.
  Qed.

  Lemma pstep_writes F t p F' p' : lazy_pc p = true -> pstep F t f p = Some (F', p') ->
    (value (F' f) = value (F f) /\ flag (F' f) = flag (F f)) \/ lockof (tr p) = SyncProxyInv.LW.
  Proof.
    intros Z H. destruct p; cbn in Z, H; try discriminate Z; try discriminate H; try (right; reflexivity);
      repeat match type of H with context [match ?x with _ => _ end] => destruct x eqn:?; try discriminate H end;
      left; injection H as <- <-; rewrite ?upd_same; auto; apply release_value.
  Qed.

  Lemma tstep_writes t m cs th F F' th' ev sa dr pend n A :
    local t (cs t) th sa dr pend n A ->
    tstep builder F t m th = Some (F', th', ev) ->
    (value (F' f) = value (F f) /\ flag (F' f) = flag (F f) /\ ~ In (BStart t f) ev) \/
    exists a, In a A /\ lockof (apcs sa a) = SyncProxyInv.LW.
  Proof.
    intros L H. pose proof L as (T1 & _).
    unfold tstep in H. destruct th as [c hd st]. unfold thread_ok in T1; cbn [code_of held stack] in *.
    destruct c as [[o|g c k]|g p k].
    - left. destruct hd as [|[g h] rest].
      + destruct st as [|fr st]; [discriminate|]. injection H as <- <- <-. split; auto. split; auto.
        intros [X|[]]. discriminate.
      + injection H as <- <- <-. destruct (release_value F t g h f) as [-> ->]. auto.
    - left. destruct (through_guard c).
      + destruct (take_guard g hd) as [[h l]|]; [|discriminate].
        destruct (enter_guard h c) as [p|]; [|discriminate]. injection H as <- <- <-. auto.
      + destruct (enter c) as [p|]; [|discriminate]. injection H as <- <- <-. auto.
    - destruct T1 as (_ & C2 & C3 & c & cs0 & Ecs & _). rewrite Ecs in L.
      destruct (Nat.eqb_spec g f) as [->|E].
      + specialize (C2 eq_refl).
        assert (S0 : exists rest, slots (c :: cs0) (mkthread (Call f p k) hd st) =
             SlCall (op_of c) (tr p) (drains p) :: rest).
        { eexists. unfold slots; cbn. rewrite Nat.eqb_refl. reflexivity. }
        destruct S0 as (rest & S0).
        destruct (hd_of _ _ _ _ _ _ _ _ _ _ L S0) as (a & Ha & (Fa & _) & _).
        assert (Ia : In a A) by (destruct A; [discriminate|injection Ha as ->; now left]).
        assert (STEP :
             match pstep F t f p with
             | Some (F'0, p') => Some (F'0, mkthread (Call f p' k) hd st, @nil bevent)
             | None => None
             end = Some (F', th', ev) ->
             (value (F' f) = value (F f) /\ flag (F' f) = flag (F f) /\ ~ In (BStart t f) ev) \/
             exists a, In a A /\ lockof (apcs sa a) = SyncProxyInv.LW).
        { intros HS. destruct (pstep F t f p) as [[F1 p1]|] eqn:PS; [|discriminate].
          injection HS as <- <- <-.
          destruct (pstep_writes _ _ _ _ _ C2 PS) as [[-> ->]|W]; auto.
          right. exists a. now rewrite Fa. }
        destruct p; try (apply STEP; exact H); clear STEP; injection H as <- <- <-.
        * left. auto.
        * right. exists a. now rewrite Fa.
      + specialize (C3 E). left.
        assert (STEP : match pstep F t g p with
             | Some (F'0, p') => Some (F'0, mkthread (Call g p' k) hd st, @nil bevent)
             | None => None
             end = Some (F', th', ev) ->
             value (F' f) = value (F f) /\ flag (F' f) = flag (F f) /\ ~ In (BStart t f) ev).
        { intros HS. destruct (pstep F t g p) as [[F1 p1]|] eqn:PS; [|discriminate].
          injection HS as <- <- <-.
          destruct (pstep_away _ _ _ _ _ _ _ E C3 PS) as [-> _]. auto. }
        destruct p; try (apply STEP; exact H); clear STEP; injection H as <- <- <-; auto.
        split; auto. split; auto. intros [X|[]]. congruence.
  Qed.

  Lemma held_slot h l : In (f, h) l -> In (SlHeld h) (held_slots l).
  Proof.
    intros H. unfold held_slots. apply in_flat_map. exists (f, h). split; auto.
    cbn. rewrite Nat.eqb_refl. now left.
  Qed.

  Lemma keeps_slot h cs th : thread_ok cs th ->
    In (f, h) (held th) \/ (exists fr, In fr (stack th) /\ In (f, h) (fr_held fr)) ->
    In (SlHeld h) (slots cs th).
  Proof.
    intros T K.
    assert (FS : forall cs0 st, Forall2 frame_ok cs0 st ->
      (exists fr, In fr st /\ In (f, h) (fr_held fr)) -> In (SlHeld h) (frame_slots cs0 st)).
    { induction 1 as [|c fr cs0 st _ _ IH]; intros (x & I1 & I2); [destruct I1|].
      cbn. destruct I1 as [->|I1]; rewrite !in_app_iff; right; [left; now apply held_slot|right; eauto]. }
    unfold thread_ok in T. unfold slots. destruct (code_of th) as [p|g p k].
    - destruct T as [_ T]. rewrite in_app_iff.
      destruct K as [K|K]; [left; now apply held_slot|right; auto].
    - destruct T as (_ & _ & _ & c & cs' & -> & _ & T). rewrite !in_app_iff. right.
      destruct K as [K|K]; [left; now apply held_slot|right; auto].
  Qed.

  Lemma fits_in pend sa dr xs A x : Forall2 (fits pend sa dr) xs A -> In x xs ->
    exists a, In a A /\ fits pend sa dr x a.
  Proof.
    induction 1 as [|y a xs A H1 _ IH]; intros H; [destruct H|destruct H as [->|H]].
    - exists a. cbn. auto.
    - destruct (IH H) as (b & I & Fb). exists b. cbn. auto.
  Qed.

  Theorem guards_keep_out v0 ps l s ev u thu h t m s' ev' : Forall (lazily f) ps ->
    run builder (start v0 ps) l = Some (s, ev) ->
    nth_error (threads s) u = Some thu -> h <> HNone ->
    In (f, h) (held thu) \/ (exists fr, In fr (stack thu) /\ In (f, h) (fr_held fr)) ->
    u <> t \/ h = HR ->
    step builder s (t, m) = Some (s', ev') ->
    value (fields s' f) = value (fields s f) /\ flag (fields s' f) = flag (fields s f) /\
    ~ In (BStart t f) ev'.
  Proof.
    intros P R Eu Nh K D S.
    destruct (run_sim _ _ _ _ _ _ _ _ _ (matches_start v0 ps P) R)
      as (la & sa & dr & h0 & n & cs & _ & (M & I & Al & _) & _).
    destruct (M _ _ Eu) as (Au & U1 & U2 & _ & U4).
    destruct (fits_in _ _ _ _ _ _ U2 (keeps_slot _ _ _ U1 K)) as (b & Ib & Fb). cbn in Fb.
    unfold step in S. cbn [fst snd] in S.
    destruct (nth_error (threads s) t) as [th|] eqn:Et; [|discriminate].
    destruct (tstep builder (fields s) t m th) as [[[F' th'] ev1]|] eqn:Ea; [|discriminate].
    injection S as <- <-. destruct (M _ _ Et) as (A & L).
    destruct (tstep_writes _ _ _ _ _ _ _ _ _ _ _ _ _ L Ea) as [W|(a & Ia & W)]; auto.
    exfalso. destruct L as (_ & _ & _ & L4).
    assert (N : b <> a).
    { intros ->. destruct D as [D| ->].
      - destruct (L4 _ Ia), (U4 _ Ib). congruence.
      - rewrite Fb in W. discriminate. }
    pose proof (SyncProxyInv.alone _ _ _ I W N) as X. rewrite Fb in X. destruct h; try discriminate; auto.
  Qed.
End Field.
