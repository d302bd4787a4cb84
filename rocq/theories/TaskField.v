(** Proofs for C65: a run of TaskModel.v, seen at one lazy field, is a run of
    AsyncProxyModel.v. *)
From Coq Require Import List Bool Arith Lia Permutation Cantor.
From Verif Require Import ProxyTypes AtomicCell MultiSpec TaskSpec StorySpec.
From Verif Require AsyncProxyModel AsyncProxyInv AsyncProxySim.
From Verif Require Import TaskModel TaskStory.
Import ListNotations.

Notation ast := (AsyncProxyModel.st nat nat).
Notation apc := (AsyncProxyModel.pc nat nat).
Notation aval := (@AsyncProxyModel.value nat nat).
Notation aflag := (@AsyncProxyModel.flag nat nat).
Notation alw := (@AsyncProxyModel.lw nat nat).
Notation alr := (@AsyncProxyModel.lr nat nat).
Notation apcs := (@AsyncProxyModel.pcs nat nat).
Notation ainv := (@AsyncProxyInv.inv nat nat).
Notation arun := (@AsyncProxyModel.run nat nat).
Notation aHold := (@AsyncProxyModel.Hold nat nat).

(** ** Program points *)

Definition trm (m : rmode) : AsyncProxyModel.rmode :=
  match m with
  | MRead => AsyncProxyModel.MRead
  | MTryRead => AsyncProxyModel.MTryRead
  | MReadMut => AsyncProxyModel.MReadMut
  | MTryReadMut => AsyncProxyModel.MTryReadMut
  | MLazy => AsyncProxyModel.MLazy
  end.

Definition tr (p : pc) : apc :=
  match p with
  | Ret h r => AsyncProxyModel.Ret h r
  | I_Acq m | I_Wait m => AsyncProxyModel.RI_Acq (trm m)
  | I_Check m => AsyncProxyModel.RI_Check (trm m)
  | I_GetBld m | I_Build m => AsyncProxyModel.RI_GetBld (trm m)
  | I_SetVal m v => AsyncProxyModel.RI_SetVal (trm m) v
  | I_SetFlag m => AsyncProxyModel.RI_SetFlag (trm m)
  | I_Done m => AsyncProxyModel.RI_Done (trm m)
  | I_Fail m e => AsyncProxyModel.RI_Fail (trm m) e
  | I_Unwind m => AsyncProxyModel.RI_Unwind (trm m)
  | R_Map m => AsyncProxyModel.R_Map (trm m)
  | M_Map m => AsyncProxyModel.M_Map (trm m)
  | W_Acq | W_Wait => AsyncProxyModel.W_Acq
  | C_Acq | C_Wait => AsyncProxyModel.C_Acq
  | C_Flag => AsyncProxyModel.C_Flag
  | C_Take => AsyncProxyModel.C_Take
  | C_Rel o => AsyncProxyModel.C_Rel o
  | L_Load => AsyncProxyModel.L_Load
  | K_Acq | K_Wait => AsyncProxyModel.K_Acq
  | K_Val => AsyncProxyModel.K_Val
  | K_Flag o => AsyncProxyModel.K_Flag o
  | K_Rel o b => AsyncProxyModel.K_Rel o b
  | D_Acq | D_Wait => AsyncProxyModel.D_Acq
  | D_Val => AsyncProxyModel.D_Val
  | D_Rel o => AsyncProxyModel.D_Rel o
  | G_Get h => AsyncProxyModel.G_Get h
  | G_Set v => AsyncProxyModel.G_Set v
  | S_Flag v => AsyncProxyModel.S_Flag v
  | S_Rep v => AsyncProxyModel.S_Rep v
  | X_Flag => AsyncProxyModel.X_Flag
  | X_Take => AsyncProxyModel.X_Take
  | G_Drop h => AsyncProxyModel.Drop h
  | _ => AsyncProxyModel.Hold HNone
  end.

Definition lazy_pc (p : pc) : bool :=
  match p with
  | Q_Acq _ | Q_Wait _ | Q_Acq2 _ | Q_Wait2 _ | Q_Cmp _ | Q_Rel2 _ _ | Q_Rel _
  | LR_Acq | LR_Wait | LR_Map | LW_Acq | LW_Wait | LW_Map => false
  | _ => true
  end.

(** A call on another field stays away from [f]. *)
Definition pc_avoids (f : fid) (p : pc) : Prop :=
  match p with
  | Q_Acq g | Q_Wait g | Q_Acq2 g | Q_Wait2 g | Q_Cmp g | Q_Rel2 g _ => g <> f
  | _ => True
  end.

Definition panicking_pc (p : pc) : Prop :=
  match p with
  | K_Acq | D_Acq => True
  | Ret HNone RPanic => True
  | _ => False
  end.

(** ** The field *)

Definition tag (a : aid) : tid := fst (of_nat a).
Definition age (a : aid) : nat := snd (of_nat a).

Record alike (c : cell) (sa : ast) : Prop := mkalike {
  al_v : value c = aval sa;
  al_f : flag c = aflag sa;
  al_w : lw c = option_map tag (alw sa);
  al_r : Permutation (lr c) (map tag (alr sa));
  al_n : NoDup (alr sa)
}.

Lemma drop_one_perm x l : In x l -> Permutation l (x :: drop_one x l).
Proof.
  induction l as [|y l IH]; [intros []|]. cbn. intros H.
  destruct (Nat.eqb_spec y x) as [->|N]; [reflexivity|].
  destruct H as [->|H]; [congruence|].
  rewrite perm_swap. constructor. auto.
Qed.

Lemma drop_reader_out a l : ~ In a l -> AsyncProxyModel.drop_reader a l = l.
Proof.
  unfold AsyncProxyModel.drop_reader. induction l as [|y l IH]; auto. cbn. intros H.
  destruct (Nat.eqb_spec y a) as [->|N]; [tauto|]. cbn. f_equal. apply IH. tauto.
Qed.

Lemma drop_reader_nodup a l : NoDup l -> NoDup (AsyncProxyModel.drop_reader a l).
Proof. apply NoDup_filter. Qed.

Lemma drop_reader_perm a l : NoDup l -> In a l -> Permutation l (a :: AsyncProxyModel.drop_reader a l).
Proof.
  induction l as [|y l IH]; [intros _ []|]. intros N H. inversion N; subst.
  unfold AsyncProxyModel.drop_reader. cbn.
  destruct (Nat.eqb_spec y a) as [->|D]; cbn.
  - fold (AsyncProxyModel.drop_reader a l). rewrite drop_reader_out; auto.
  - destruct H as [->|H]; [congruence|]. rewrite perm_swap. constructor. apply IH; auto.
Qed.

Lemma readers_drop a l L : NoDup l -> In a l -> Permutation L (map tag l) ->
  Permutation (drop_one (tag a) L) (map tag (AsyncProxyModel.drop_reader a l)).
Proof.
  intros N I P. apply (Permutation_cons_inv (a := tag a)).
  transitivity L.
  - symmetry. apply drop_one_perm. apply (Permutation_in _ (Permutation_sym P)). now apply in_map.
  - rewrite P. change (tag a :: map tag (AsyncProxyModel.drop_reader a l))
      with (map tag (a :: AsyncProxyModel.drop_reader a l)).
    apply Permutation_map, drop_reader_perm; auto.
Qed.

Lemma alike_free c sa w : alike c sa -> free c w = true ->
  alw sa = None /\ (w = true -> alr sa = []).
Proof.
  intros A. unfold free. rewrite (al_w _ _ A). destruct (alw sa); [discriminate|]. cbn.
  destruct w; [|split; [auto|discriminate]].
  destruct (lr c) eqn:E; [|discriminate]. split; auto. intros _.
  pose proof (al_r _ _ A) as P. rewrite E in P. apply Permutation_nil in P.
  now apply map_eq_nil in P.
Qed.

(** ** One step of a call on the field *)

Definition moved (c' : cell) (sa sa' : ast) (a : aid) (q : apc) : Prop :=
  alike c' sa' /\ apcs sa' a = q /\ forall b, b <> a -> apcs sa' b = apcs sa b.

Lemma upd_same F f c : upd F f c f = c.
Proof. unfold upd. now rewrite Nat.eqb_refl. Qed.
Lemma upd_other F f c g : g <> f -> upd F f c g = F g.
Proof. unfold upd. destruct (Nat.eqb_spec g f); congruence. Qed.

Lemma aupd_same (x : aid -> apc) a q : AsyncProxyModel.upd x a q a = q.
Proof. unfold AsyncProxyModel.upd. now rewrite Nat.eqb_refl. Qed.
Lemma aupd_other (x : aid -> apc) a q b : b <> a -> AsyncProxyModel.upd x a q b = x b.
Proof. unfold AsyncProxyModel.upd. destruct (Nat.eqb_spec b a); congruence. Qed.

Lemma one_step sa a sa' h :
  AsyncProxyModel.step_code sa a = Some (sa', h) ->
  arun sa [AsyncProxyModel.AStep a] = Some (sa', h).
Proof. intros H. cbn. rewrite H. now rewrite app_nil_r. Qed.

Lemma moved_stay c sa a q : alike c sa -> apcs sa a = q -> moved c sa sa a q.
Proof. unfold moved. auto. Qed.

Lemma moved_queue c sa a q ql : alike c sa -> apcs sa a = q ->
  moved (set_lock c (lw c) (lr c) ql) sa sa a q.
Proof. intros [A1 A2 A3 A4 A5] H. split; [|auto]. constructor; cbn; auto. Qed.

Lemma alike_pc c sa a q : alike c sa -> alike c (AsyncProxyModel.set_pc sa a q).
Proof. intros [A1 A2 A3 A4 A5]. constructor; cbn; auto. Qed.

Lemma moved_pc c sa sa1 a q : alike c sa1 -> apcs sa1 = apcs sa ->
  moved c sa (AsyncProxyModel.set_pc sa1 a q) a q.
Proof.
  intros A E. split; [now apply alike_pc|]. cbn. rewrite E.
  split; [apply aupd_same|]. intros b Hb. now apply aupd_other.
Qed.

(** The lock of a request that is served. *)
Lemma take_w c sa a q : alike c sa -> free c true = true ->
  alike (take c (tag a) true q) (AsyncProxyModel.set_lock sa (Some a) []).
Proof.
  intros A Fr. destruct (alike_free _ _ _ A Fr) as [_ E]. specialize (E eq_refl).
  destruct A as [A1 A2 A3 A4 A5]. constructor; cbn; auto.
  - rewrite E in A4. auto.
  - constructor.
Qed.

Lemma take_r c sa a q : alike c sa -> free c false = true -> ~ In a (alr sa) ->
  alike (take c (tag a) false q) (AsyncProxyModel.set_lock sa None (a :: alr sa)).
Proof.
  intros A Fr N. destruct (alike_free _ _ _ A Fr) as [E _].
  destruct A as [A1 A2 A3 A4 A5]. rewrite E in A3. cbn in A3. constructor; cbn; auto.
  now constructor.
Qed.

Definition served_at (f : fid) (F : cells) (sa : ast) (a : aid) (q0 : apc) (x : option (cells * pc)) : Prop :=
  forall F' p', x = Some (F', p') ->
  exists l sa', arun sa l = Some (sa', []) /\ moved (F' f) sa sa' a (tr p') /\ Forall (eq (AsyncProxyModel.AStep a)) l.

Lemma no_move (f : fid) sa a q0 (F' : cells) p' :
  alike (F' f) sa -> apcs sa a = q0 -> tr p' = q0 ->
  exists l sa', arun sa l = Some (sa', []) /\ moved (F' f) sa sa' a (tr p') /\ Forall (eq (AsyncProxyModel.AStep a)) l.
Proof.
  intros A E1 E2. exists [], sa. split; [reflexivity|]. split; [|constructor]. apply moved_stay; auto. congruence.
Qed.

Lemma one_move (f : fid) sa a (F' : cells) p' sa1 :
  AsyncProxyModel.step_code sa a = Some (AsyncProxyModel.set_pc sa1 a (tr p'), []) ->
  apcs sa1 = apcs sa -> alike (F' f) sa1 ->
  exists l sa', arun sa l = Some (sa', []) /\ moved (F' f) sa sa' a (tr p') /\ Forall (eq (AsyncProxyModel.AStep a)) l.
Proof.
  intros R E A. exists [AsyncProxyModel.AStep a], (AsyncProxyModel.set_pc sa1 a (tr p')).
  split; [now apply one_step|]. split; [now apply moved_pc|]. constructor; auto.
Qed.

Lemma reader_free sa a : ainv sa -> AsyncProxyInv.lockof (apcs sa a) = AsyncProxyInv.LN -> ~ In a (alr sa).
Proof. intros I L H. apply (AsyncProxyInv.i_r _ I) in H. congruence. Qed.

Lemma serve_w f F sa a q0 p1 :
  alike (F f) sa -> apcs sa a = q0 ->
  (alw sa = None -> alr sa = [] -> AsyncProxyModel.step_code sa a =
     Some (AsyncProxyModel.set_pc (AsyncProxyModel.set_lock sa (Some a) []) a (tr p1), [])) ->
  served_at f F sa a q0 (served F (tag a) f true p1).
Proof.
  intros A E R F' p'. unfold served. destruct (lq (F f)) as [|[u w] ql]; [discriminate|].
  destruct (Nat.eqb u (tag a) && free (F f) true) eqn:B; [|discriminate].
  apply andb_true_iff in B as [_ B]. intros [= <- <-].
  destruct (alike_free _ _ _ A B) as [W L].
  eapply one_move; [apply R; auto|reflexivity|]. rewrite upd_same. apply take_w; auto.
Qed.

Lemma serve_r f F sa a q0 p1 :
  ainv sa -> AsyncProxyInv.lockof (apcs sa a) = AsyncProxyInv.LN ->
  alike (F f) sa -> apcs sa a = q0 ->
  (alw sa = None -> AsyncProxyModel.step_code sa a =
     Some (AsyncProxyModel.set_pc (AsyncProxyModel.set_lock sa None (a :: alr sa)) a (tr p1), [])) ->
  served_at f F sa a q0 (served F (tag a) f false p1).
Proof.
  intros I K A E R F' p'. unfold served. destruct (lq (F f)) as [|[u w] ql]; [discriminate|].
  destruct (Nat.eqb u (tag a) && free (F f) false) eqn:B; [|discriminate].
  apply andb_true_iff in B as [_ B]. intros [= <- <-].
  destruct (alike_free _ _ _ A B) as [W _].
  eapply one_move; [apply R; auto|reflexivity|]. rewrite upd_same. apply take_r; auto. now apply reader_free.
Qed.

Lemma request_w f F sa a q0 p1 p2 :
  alike (F f) sa -> apcs sa a = q0 -> tr p2 = q0 ->
  (alw sa = None -> alr sa = [] -> AsyncProxyModel.step_code sa a =
     Some (AsyncProxyModel.set_pc (AsyncProxyModel.set_lock sa (Some a) []) a (tr p1), [])) ->
  served_at f F sa a q0 (request F (tag a) f true p1 p2).
Proof.
  intros A E E2 R F' p'. unfold request. destruct (lq (F f)) as [|x ql].
  - destruct (free (F f) true) eqn:B; intros [= <- <-].
    + destruct (alike_free _ _ _ A B) as [W L].
      eapply one_move; [apply R; auto|reflexivity|]. rewrite upd_same. apply take_w; auto.
    + eapply no_move; eauto. rewrite upd_same. exact (proj1 (moved_queue _ _ _ _ _ A E)).
  - intros [= <- <-]. eapply no_move; eauto. rewrite upd_same. exact (proj1 (moved_queue _ _ _ _ _ A E)).
Qed.

Lemma request_r f F sa a q0 p1 p2 :
  ainv sa -> AsyncProxyInv.lockof (apcs sa a) = AsyncProxyInv.LN ->
  alike (F f) sa -> apcs sa a = q0 -> tr p2 = q0 ->
  (alw sa = None -> AsyncProxyModel.step_code sa a =
     Some (AsyncProxyModel.set_pc (AsyncProxyModel.set_lock sa None (a :: alr sa)) a (tr p1), [])) ->
  served_at f F sa a q0 (request F (tag a) f false p1 p2).
Proof.
  intros I K A E E2 R F' p'. unfold request. destruct (lq (F f)) as [|x ql].
  - destruct (free (F f) false) eqn:B; intros [= <- <-].
    + destruct (alike_free _ _ _ A B) as [W _].
      eapply one_move; [apply R; auto|reflexivity|]. rewrite upd_same. apply take_r; auto. now apply reader_free.
    + eapply no_move; eauto. rewrite upd_same. exact (proj1 (moved_queue _ _ _ _ _ A E)).
  - intros [= <- <-]. eapply no_move; eauto. rewrite upd_same. exact (proj1 (moved_queue _ _ _ _ _ A E)).
Qed.

Lemma alike_unlock_w c sa : alike c sa ->
  alike (set_lock c None (lr c) (lq c)) (AsyncProxyModel.set_lock sa None (alr sa)).
Proof. intros [A1 A2 A3 A4 A5]. constructor; cbn; auto. Qed.

Lemma alike_unlock_r c sa a : alike c sa -> In a (alr sa) ->
  alike (set_lock c (lw c) (drop_one (tag a) (lr c)) (lq c))
        (AsyncProxyModel.set_lock sa (alw sa) (AsyncProxyModel.drop_reader a (alr sa))).
Proof.
  intros [A1 A2 A3 A4 A5] I. constructor; cbn; auto.
  - apply readers_drop; auto.
  - now apply drop_reader_nodup.
Qed.

Lemma alike_value c sa ov : alike c sa -> alike (set_value c ov) (AsyncProxyModel.set_value sa ov).
Proof. intros [A1 A2 A3 A4 A5]. constructor; cbn; auto. Qed.
Lemma alike_flag c sa b : alike c sa -> alike (set_flag c b) (AsyncProxyModel.set_flag sa b).
Proof. intros [A1 A2 A3 A4 A5]. constructor; cbn; auto. Qed.

Lemma alike_downgrade c sa a : ainv sa -> AsyncProxyInv.lockof (apcs sa a) = AsyncProxyInv.LW ->
  alike c sa ->
  alike (set_lock c None (tag a :: lr c) (lq c)) (AsyncProxyModel.set_lock sa None (a :: alr sa)).
Proof.
  intros I L [A1 A2 A3 A4 A5]. constructor; cbn; auto.
  apply (AsyncProxyInv.i_w _ I) in L. apply (AsyncProxyInv.i_x _ I) in L. rewrite L.
  repeat constructor; auto.
Qed.

Lemma in_readers sa a : ainv sa -> AsyncProxyInv.lockof (apcs sa a) = AsyncProxyInv.LR -> In a (alr sa).
Proof. intros I L. now apply (AsyncProxyInv.i_r _ I). Qed.

Lemma pstep_field f F t ins p F' p' sa a :
  ainv sa -> alike (F f) sa -> tag a = t -> apcs sa a = tr p -> lazy_pc p = true ->
  match p with Ret _ _ | I_Build _ => False | _ => True end ->
  (ins = true -> p <> K_Acq /\ p <> D_Acq) ->
  pstep F t ins f p = Some (F', p') ->
  lazy_pc p' = true /\
  exists l sa', arun sa l = Some (sa', []) /\ moved (F' f) sa sa' a (tr p') /\
    Forall (eq (AsyncProxyModel.AStep a)) l.
Proof.
  intros I A <- E Z NR NB H.
  assert (B : AsyncProxyModel.bset sa = true) by apply (AsyncProxyInv.i_b _ I).
  pose proof (AsyncProxyInv.i_p _ I a) as OK. rewrite E in OK.
  assert (Zq : lazy_pc p' = true).
  { destruct p; cbn in Z, H, NR |- *; try discriminate Z; try contradiction;
      unfold request, served, blocking_read in H;
      repeat match type of H with
             | context [match ?x with _ => _ end] => destruct x; try discriminate H
             end; try (injection H as <- <-; reflexivity);
      unfold request in H;
      repeat match type of H with
             | context [match ?x with _ => _ end] => destruct x; try discriminate H
             end; injection H as <- <-; reflexivity. }
  split; auto. revert F' p' H Zq.
  change (forall F' p', pstep F (tag a) ins f p = Some (F', p') -> lazy_pc p' = true ->
    exists l sa', arun sa l = Some (sa', []) /\ moved (F' f) sa sa' a (tr p') /\
      Forall (eq (AsyncProxyModel.AStep a)) l).
  intros F' p' H _.
  assert (SC : AsyncProxyModel.step_code sa a = AsyncProxyModel.step_code sa a) by reflexivity.
  unfold AsyncProxyModel.step_code in SC at 2. rewrite E in SC.
  destruct p; cbn in Z, H, NR, SC, OK; try discriminate Z; try contradiction.
  - refine (request_w _ _ _ _ _ _ _ A E _ _ _ _ H); [reflexivity|]. intros W L. rewrite SC, W, L. reflexivity.
  - refine (serve_w _ _ _ _ _ _ A E _ _ _ H). intros W L. rewrite SC, W, L. reflexivity.
  - rewrite (al_v _ _ A) in H.
    destruct (aval sa); injection H as <- <-; eapply one_move; eauto; reflexivity.
  - injection H as <- <-. eapply no_move; eauto.
  - injection H as <- <-. eapply one_move; [exact SC|reflexivity|]. rewrite upd_same. now apply alike_value.
  - injection H as <- <-. eapply one_move; [exact SC|reflexivity|]. rewrite upd_same. now apply alike_flag.
  - destruct m; injection H as <- <-;
      try (eapply one_move; [exact SC|reflexivity|]; rewrite ?upd_same; try assumption;
           try (apply alike_downgrade; auto; rewrite E; reflexivity); now apply alike_unlock_w).
  - injection H as <- <-. destruct m; (eapply one_move; [exact SC|reflexivity|]; rewrite upd_same; now apply alike_unlock_w).
  - injection H as <- <-. eapply one_move; [exact SC|reflexivity|]. rewrite upd_same. now apply alike_unlock_w.
  - rewrite (al_v _ _ A) in H. destruct (aval sa); injection H as <- <-;
      (eapply one_move; [exact SC|reflexivity|]; rewrite ?upd_same; auto).
    apply alike_unlock_r; auto. apply in_readers; auto. now rewrite E.
  - rewrite (al_v _ _ A) in H. destruct (aval sa); injection H as <- <-;
      (eapply one_move; [exact SC|reflexivity|]; rewrite ?upd_same; auto).
    now apply alike_unlock_w.
  - refine (request_w _ _ _ _ _ _ _ A E _ _ _ _ H); [reflexivity|]. intros W L. rewrite SC, W, L. reflexivity.
  - refine (serve_w _ _ _ _ _ _ A E _ _ _ H). intros W L. rewrite SC, W, L. reflexivity.
  - refine (request_w _ _ _ _ _ _ _ A E _ _ _ _ H); [reflexivity|]. intros W L. rewrite SC, W, L. reflexivity.
  - refine (serve_w _ _ _ _ _ _ A E _ _ _ H). intros W L. rewrite SC, W, L. reflexivity.
  - injection H as <- <-. eapply one_move; [exact SC|reflexivity|]. rewrite upd_same. now apply alike_flag.
  - injection H as <- <-. rewrite (al_v _ _ A).
    eapply one_move; [exact SC|reflexivity|]. rewrite upd_same. now apply alike_value.
  - injection H as <- <-. eapply one_move; [exact SC|reflexivity|]. rewrite upd_same. now apply alike_unlock_w.
  - injection H as <- <-. rewrite (al_f _ _ A). eapply one_move; [exact SC|reflexivity|auto].
  - unfold blocking_read in H. destruct ins; [destruct NB; auto; congruence|].
    refine (request_r _ _ _ _ _ _ _ I ltac:(now rewrite E) A E _ _ _ _ H); [reflexivity|]. intros W. rewrite SC, W. reflexivity.
  - refine (serve_r _ _ _ _ _ _ I ltac:(now rewrite E) A E _ _ _ H). intros W. rewrite SC, W. reflexivity.
  - injection H as <- <-. rewrite (al_v _ _ A). eapply one_move; [exact SC|reflexivity|auto].
  - injection H as <- <-. rewrite (al_f _ _ A). eapply one_move; [exact SC|reflexivity|auto].
  - injection H as <- <-. rewrite B in SC. eapply one_move; [exact SC|reflexivity|].
    rewrite upd_same. apply alike_unlock_r; auto. apply in_readers; auto. now rewrite E.
  - unfold blocking_read in H. destruct ins; [destruct NB; auto; congruence|].
    refine (request_r _ _ _ _ _ _ _ I ltac:(now rewrite E) A E _ _ _ _ H); [reflexivity|]. intros W. rewrite SC, W. reflexivity.
  - refine (serve_r _ _ _ _ _ _ I ltac:(now rewrite E) A E _ _ _ H). intros W. rewrite SC, W. reflexivity.
  - injection H as <- <-. rewrite (al_v _ _ A). eapply one_move; [exact SC|reflexivity|auto].
  - injection H as <- <-. eapply one_move; [exact SC|reflexivity|].
    rewrite upd_same. apply alike_unlock_r; auto. apply in_readers; auto. now rewrite E.
  - rewrite (al_v _ _ A) in H. destruct (aval sa); injection H as <- <-;
      (eapply one_move; [exact SC|reflexivity|auto]).
  - injection H as <- <-. eapply one_move; [exact SC|reflexivity|]. rewrite upd_same. now apply alike_value.
  - injection H as <- <-. eapply one_move; [exact SC|reflexivity|]. rewrite upd_same. now apply alike_flag.
  - injection H as <- <-. rewrite (al_v _ _ A).
    eapply one_move; [exact SC|reflexivity|]. rewrite upd_same. now apply alike_value.
  - injection H as <- <-. eapply one_move; [exact SC|reflexivity|]. rewrite upd_same. now apply alike_flag.
  - injection H as <- <-. rewrite (al_v _ _ A).
    eapply one_move; [exact SC|reflexivity|]. rewrite upd_same. now apply alike_value.
  - injection H as <- <-. destruct h; cbn in SC; [destruct OK; congruence| | |];
      (eapply one_move; [exact SC|reflexivity|]; cbn [release]; rewrite upd_same;
       try now apply alike_unlock_w).
    apply alike_unlock_r; auto. apply in_readers; auto. now rewrite E.
Qed.

(** A step on another field leaves this one alone. *)
Lemma request_away F t g w y n F' p' f : g <> f -> request F t g w y n = Some (F', p') -> F' f = F f.
Proof.
  intros N. unfold request.
  repeat match goal with |- context [match ?x with _ => _ end] => destruct x end;
    intros [= <- <-]; apply upd_other; auto.
Qed.
Lemma served_away F t g w y F' p' f : g <> f -> served F t g w y = Some (F', p') -> F' f = F f.
Proof.
  intros N. unfold served.
  repeat match goal with |- context [match ?x with _ => _ end] => destruct x end;
    try discriminate; intros [= <- <-]; apply upd_other; auto.
Qed.
Lemma release_away F t g h f : g <> f -> release F t g h f = F f.
Proof. intros N. destruct h; cbn; auto; apply upd_other; auto. Qed.

Lemma request_pc F t g w y n F' p' : request F t g w y n = Some (F', p') -> p' = y \/ p' = n.
Proof.
  unfold request.
  repeat match goal with |- context [match ?x with _ => _ end] => destruct x end;
    intros [= <- <-]; auto.
Qed.
Lemma served_pc F t g w y F' p' : served F t g w y = Some (F', p') -> p' = y.
Proof.
  unfold served.
  repeat match goal with |- context [match ?x with _ => _ end] => destruct x end;
    try discriminate; intros [= <- <-]; auto.
Qed.

Lemma pstep_away F t ins g p F' p' f : g <> f -> pc_avoids f p ->
  pstep F t ins g p = Some (F', p') -> F' f = F f /\ pc_avoids f p'.
Proof.
  intros N A H.
  destruct p; cbn in A, H; unfold blocking_read in H; try discriminate H;
    try (match type of H with context [if ins then _ else _] => destruct ins end;
         [injection H as <- <-; split; [auto|exact Logic.I]|]);
    try (split; [first [exact (request_away _ _ _ _ _ _ _ _ _ N H)|exact (request_away _ _ _ _ _ _ _ _ _ A H)]|
                 apply request_pc in H as [-> | ->]; cbn; auto]; fail);
    try (split; [first [exact (served_away _ _ _ _ _ _ _ _ N H)|exact (served_away _ _ _ _ _ _ _ _ A H)]|apply served_pc in H as ->; cbn; auto]; fail);
    try (match type of H with context [match ?x with _ => _ end] => destruct x end);
    injection H as <- <-;
    rewrite ?upd_other, ?release_away by auto; cbn; auto.
Qed.

(** ** Slots: what a task has to do with the field *)

Inductive slot : Type :=
| SlCall (o : op nat) (p : apc)   (* a call in progress *)
| SlHeld (h : hold)               (* a guard kept by user code *)
| SlLeft (h : hold).              (* a guard about to be dropped *)

Definition fits (pend : aid -> op nat) (sa : ast) (x : slot) (a : aid) : Prop :=
  match x with
  | SlCall o p => apcs sa a = p /\ pend a = o
  | SlHeld h => apcs sa a = aHold h
  | SlLeft h => apcs sa a = aHold h \/ (h = HM /\ exists m, apcs sa a = AsyncProxyModel.RI_Drop m)
  end.

Section Field.
  Variable inside : tid -> bool.
  Variable f : fid.

  Definition held_slots (mk : hold -> slot) (l : guards) : list slot :=
    flat_map (fun x => if Nat.eqb (fst x) f then [mk (snd x)] else []) l.

  Definition op_of (c : call) : op nat := match c with Proxy o => o | _ => ORead end.

  Definition code_slots (t : tid) (c : code) : list slot :=
    match c with
    | User _ => []
    | Call g c p _ =>
        if Nat.eqb g f && reaches inside t (op_of c) then [SlCall (op_of c) (tr p)] else []
    | Leave gs _ => held_slots SlLeft gs
    end.

  Definition frame_slots (fr : frame) : list slot :=
    (if Nat.eqb (fr_field fr) f
     then [SlCall (op_of (fr_call fr)) (AsyncProxyModel.RI_Build (trm (fr_mode fr)))] else [])
    ++ held_slots SlHeld (fr_held fr).

  Definition slots (t : tid) (th : task) : list slot :=
    code_slots t (code_of th) ++ held_slots SlHeld (held th) ++ flat_map frame_slots (stack th).

  Definition code_ok (t : tid) (c : code) : Prop :=
    match c with
    | User p => lazily f p
    | Call g c p k =>
        (forall r, lazily f (k r)) /\
        (g = f -> lazy_pc p = true /\ (exists o, c = Proxy o) /\
                  (reaches inside t (op_of c) = false -> panicking_pc p) /\
                  (reaches inside t (op_of c) = true -> inside t = true -> p <> K_Acq /\ p <> D_Acq)) /\
        (g <> f -> pc_avoids f p)
    | Leave _ None => True
    | Leave _ (Some (_, _, k)) => forall r, lazily f (k r)
    end.

  Definition frame_ok (t : tid) (fr : frame) : Prop :=
    (forall r, lazily f (fr_cont fr r)) /\
    (fr_field fr = f -> (exists o, fr_call fr = Proxy o) /\ reaches inside t (op_of (fr_call fr)) = true).

  Definition task_ok (t : tid) (th : task) : Prop :=
    code_ok t (code_of th) /\ Forall (frame_ok t) (stack th).

  (** ** Simulation of one action of one task *)

  Definition local (t : tid) (th : task) (sa : ast) (pend : aid -> op nat) (n : nat) (A : list aid) : Prop :=
    task_ok t th /\ Forall2 (fits pend sa) (slots t th) A /\ NoDup A /\
    (forall a, In a A -> tag a = t /\ age a < n).

  Definition field_ok (c : cell) (sa : ast) (n : nat) : Prop :=
    ainv sa /\ alike c sa /\ forall a, n <= age a -> apcs sa a = aHold HNone.

  Definition simulated (t : tid) (F' : cells) (th' : task) (N : list note) (sa : ast)
    (pend : aid -> op nat) (n : nat) : Prop :=
    exists l sa' h n' A', arun sa l = Some (sa', h) /\ notes tag pend h = N /\ n <= n' /\
      local t th' sa' (last_calls pend h) n' A' /\ field_ok (F' f) sa' n' /\
      (forall b, tag b <> t -> apcs sa' b = apcs sa b /\ last_calls pend h b = pend b).

  Lemma fits_frame pend pend' sa sa' xs A :
    Forall2 (fits pend sa) xs A ->
    (forall a, In a A -> apcs sa' a = apcs sa a /\ pend' a = pend a) ->
    Forall2 (fits pend' sa') xs A.
  Proof.
    induction 1 as [|x a xs A H1 _ IH]; intros H; constructor.
    - destruct (H a (or_introl eq_refl)) as [E1 E2].
      destruct x; cbn in *; rewrite ?E1, ?E2; auto.
    - apply IH. intros b Hb. apply H. now right.
  Qed.

  Lemma arun_inv sa l sa' h : ainv sa -> arun sa l = Some (sa', h) -> ainv sa'.
  Proof. intros I R. exact (AsyncProxyInv.inv_run _ _ _ _ I R). Qed.

  Lemma sim_same t th th' F F' N sa pend n A :
    local t th sa pend n A -> field_ok (F f) sa n -> N = [] ->
    slots t th' = slots t th -> task_ok t th' -> alike (F' f) sa ->
    simulated t F' th' N sa pend n.
  Proof.
    intros (_ & L2 & L3 & L4) (K1 & _ & K3) -> S T Al.
    exists [], sa, [], n, A. cbn. split; auto. split; auto. split; auto.
    split; [split; [|rewrite S]; auto|]. split; [split; auto|auto].
  Qed.

  Lemma sim_head t th th' F F' N x rest ys sa pend n A l sa' h :
    local t th sa pend n A -> field_ok (F f) sa n ->
    slots t th = x :: rest -> slots t th' = ys ++ rest -> task_ok t th' ->
    forall a, hd_error A = Some a ->
    (ys = [] \/ exists y, ys = [y] /\ fits (last_calls pend h) sa' y a) ->
    arun sa l = Some (sa', h) -> alike (F' f) sa' ->
    (forall b, b <> a -> apcs sa' b = apcs sa b) ->
    (forall b, b <> a -> last_calls pend h b = pend b) ->
    notes tag pend h = N ->
    simulated t F' th' N sa pend n.
  Proof.
    intros (_ & L2 & L3 & L4) (K1 & _ & K3) S S' T a HA Y R Al O P NN.
    rewrite S in L2. inversion L2 as [|x0 a0 xs A1 M1 M2]; subst. cbn in HA.
    injection HA as ->. inversion L3 as [|? ? NI ND]; subst.
    destruct (L4 a (or_introl eq_refl)) as [Ta Ga].
    assert (M2' : Forall2 (fits (last_calls pend h) sa') rest A1).
    { eapply fits_frame; [exact M2|]. intros b Hb. assert (b <> a) by (intros ->; auto). split; auto. }
    assert (Fo : field_ok (F' f) sa' n).
    { split; [exact (arun_inv _ _ _ _ K1 R)|]. split; auto. intros b Hb. rewrite O; auto. intros ->. lia. }
    assert (Oo : forall b, tag b <> t -> apcs sa' b = apcs sa b /\ last_calls pend h b = pend b).
    { intros b Hb. assert (b <> a) by (intros ->; auto). split; auto. }
    destruct Y as [-> |(y & -> & Fy)].
    - exists l, sa', h, n, A1.
      split; auto. split; auto. split; auto. split; [|split; auto].
      split; auto. split; [now rewrite S'|]. split; auto. intros b Hb. apply L4. now right.
    - exists l, sa', h, n, (a :: A1).
      split; auto. split; auto. split; auto. split; [|split; auto].
      split; auto. split; [rewrite S'; cbn; constructor; auto|]. split; auto.
  Qed.

  Lemma sim_new t th th' F F' N o p sa pend n A :
    local t th sa pend n A -> field_ok (F f) sa n ->
    slots t th' = SlCall o p :: slots t th -> task_ok t th' -> F' f = F f ->
    AsyncProxyModel.enter HNone o = Some p ->
    (if noted o then [NCall t o] else []) = N ->
    simulated t F' th' N sa pend n.
  Proof.
    intros (_ & L2 & L3 & L4) (K1 & K2 & K3) S T E En <-.
    pose (a := to_nat (t, n)).
    assert (Ta : tag a = t) by (unfold tag, a; now rewrite cancel_of_to).
    assert (Ga : age a = n) by (unfold age, a; now rewrite cancel_of_to).
    clearbody a.
    assert (Ha : apcs sa a = aHold HNone) by (apply K3; lia).
    assert (R : arun sa [AsyncProxyModel.ACall a o] =
                Some (AsyncProxyModel.set_pc sa a p, [EvCall a o])).
    { cbn. rewrite Ha, En. reflexivity. }
    assert (NI : ~ In a A) by (intros H; apply L4 in H; lia).
    exists [AsyncProxyModel.ACall a o], (AsyncProxyModel.set_pc sa a p), [EvCall a o], (Datatypes.S n), (a :: A).
    split; auto. split; [cbn; now rewrite Ta, app_nil_r|]. split; [lia|].
    split; [|split].
    - split; auto. rewrite S. split; [constructor|split].
      + split; cbn; [apply aupd_same|]. unfold mark. now rewrite Nat.eqb_refl.
      + eapply fits_frame; [exact L2|]. intros b Hb. assert (b <> a) by (intros ->; auto). cbn.
        rewrite aupd_other by auto. unfold mark. destruct (Nat.eqb_spec b a); [congruence|auto].
      + now constructor.
      + intros b [<-|Hb]; [lia|]. apply L4 in Hb. lia.
    - split; [exact (arun_inv _ _ _ _ K1 R)|]. split; [rewrite E; now apply alike_pc|].
      intros b Hb. cbn. rewrite aupd_other; [apply K3; lia|]. intros ->. lia.
    - intros b Hb. assert (b <> a) by (intros ->; auto). cbn. rewrite aupd_other by auto.
      unfold mark. destruct (Nat.eqb_spec b a); [congruence|auto].
  Qed.

  (** Dropping a guard. *)
  Lemma drop_guard (F : cells) sa pend a t h x :
    ainv sa -> alike (F f) sa -> tag a = t -> fits pend sa x a -> x = SlHeld h \/ x = SlLeft h ->
    exists l sa' hs, arun sa l = Some (sa', hs) /\ alike (release F t f h f) sa' /\
      (forall b, b <> a -> apcs sa' b = apcs sa b) /\
      (forall b, b <> a -> last_calls pend hs b = pend b) /\
      notes tag pend hs = [].
  Proof.
    intros I A <- Fx X.
    assert (D : apcs sa a = aHold h \/ (h = HM /\ exists m, apcs sa a = AsyncProxyModel.RI_Drop m)).
    { destruct X as [-> | ->]; cbn in Fx; auto. }
    clear Fx X. destruct D as [D|[-> [m D]]].
    - destruct h.
      + exists [], sa, []. repeat split; auto; apply A.
      + eexists [AsyncProxyModel.ACall a GDrop; AsyncProxyModel.AStep a; AsyncProxyModel.AStep a], _, _.
        split; [cbn; rewrite D; cbn; unfold AsyncProxyModel.step_code; cbn; rewrite ?aupd_same; cbn;
                rewrite ?aupd_same; cbn; reflexivity|].
        cbn [release]. rewrite upd_same. split; [|split; [|split]].
        * apply alike_pc, alike_pc.
          apply (alike_unlock_r _ (AsyncProxyModel.set_pc sa a (AsyncProxyModel.Drop HR)) a);
            [now apply alike_pc|]. change (In a (alr sa)). apply in_readers; auto. now rewrite D.
        * intros b Hb. cbn. rewrite !aupd_other; auto.
        * intros b Hb. cbn. unfold mark. destruct (Nat.eqb_spec b a); congruence.
        * cbn. unfold mark. rewrite Nat.eqb_refl. reflexivity.
      + eexists [AsyncProxyModel.ACall a GDrop; AsyncProxyModel.AStep a; AsyncProxyModel.AStep a], _, _.
        split; [cbn; rewrite D; cbn; unfold AsyncProxyModel.step_code; cbn; rewrite ?aupd_same; cbn;
                rewrite ?aupd_same; cbn; reflexivity|].
        cbn [release]. rewrite upd_same. split; [|split; [|split]].
        * apply alike_pc, alike_pc. apply (alike_unlock_w _ (AsyncProxyModel.set_pc sa a (AsyncProxyModel.Drop HM))). now apply alike_pc.
        * intros b Hb. cbn. rewrite !aupd_other; auto.
        * intros b Hb. cbn. unfold mark. destruct (Nat.eqb_spec b a); congruence.
        * cbn. unfold mark. rewrite Nat.eqb_refl. reflexivity.
      + eexists [AsyncProxyModel.ACall a GDrop; AsyncProxyModel.AStep a; AsyncProxyModel.AStep a], _, _.
        split; [cbn; rewrite D; cbn; unfold AsyncProxyModel.step_code; cbn; rewrite ?aupd_same; cbn;
                rewrite ?aupd_same; cbn; reflexivity|].
        cbn [release]. rewrite upd_same. split; [|split; [|split]].
        * apply alike_pc, alike_pc. apply (alike_unlock_w _ (AsyncProxyModel.set_pc sa a (AsyncProxyModel.Drop HW))). now apply alike_pc.
        * intros b Hb. cbn. rewrite !aupd_other; auto.
        * intros b Hb. cbn. unfold mark. destruct (Nat.eqb_spec b a); congruence.
        * cbn. unfold mark. rewrite Nat.eqb_refl. reflexivity.
    - eexists [AsyncProxyModel.AStep a; AsyncProxyModel.AStep a], _, _.
      split; [cbn; unfold AsyncProxyModel.step_code; rewrite D; cbn; rewrite ?aupd_same; cbn; reflexivity|].
      cbn [release]. rewrite upd_same. split; [|split; [|split]].
      + apply alike_pc, alike_pc. now apply alike_unlock_w.
      + intros b Hb. cbn. rewrite !aupd_other; auto.
      + intros b Hb. reflexivity.
      + cbn. unfold noted_ret. now rewrite andb_false_r.
  Qed.

  (** ** Dropping futures *)

  Definition left (x : slot) : slot :=
    match x with SlHeld h => SlLeft h | SlCall _ _ => SlLeft HM | SlLeft h => SlLeft h end.
  Definition leavable (x : slot) : Prop :=
    match x with
    | SlHeld _ => True
    | SlCall _ (AsyncProxyModel.RI_Build _) => True
    | _ => False
    end.

  Lemma arun_app sa l1 sa1 h1 l2 sa2 h2 :
    arun sa l1 = Some (sa1, h1) -> arun sa1 l2 = Some (sa2, h2) ->
    arun sa (l1 ++ l2) = Some (sa2, h1 ++ h2).
  Proof.
    revert sa h1. induction l1 as [|x l1 IH]; cbn; intros sa h1.
    - intros [= -> <-]. auto.
    - destruct (AsyncProxyModel.step sa x) as [[s1 t1]|]; [|discriminate].
      destruct (arun s1 l1) as [[s2 t2]|] eqn:E; [|discriminate].
      intros [= -> <-] R. rewrite (IH _ _ E R). now rewrite app_assoc.
  Qed.

  Lemma leave_all pend xs : forall A sa,
    Forall leavable xs -> Forall2 (fits pend sa) xs A -> NoDup A ->
    exists l sa', arun sa l = Some (sa', []) /\ Forall2 (fits pend sa') (map left xs) A /\
      (forall b, ~ In b A -> apcs sa' b = apcs sa b) /\ (forall c, alike c sa -> alike c sa').
  Proof.
    induction xs as [|x xs IH]; intros A sa L M N; inversion M as [|x0 a xs0 A1 M1 M2]; subst.
    { exists [], sa. cbn. auto. }
    inversion L as [|? ? L1 L2]; subst. inversion N as [|? ? N1 N2]; subst.
    assert (H : exists l sa', arun sa l = Some (sa', []) /\ fits pend sa' (left x) a /\
        (forall b, b <> a -> apcs sa' b = apcs sa b) /\ (forall c, alike c sa -> alike c sa')).
    { destruct x as [o p|h|h]; cbn in *; [| |contradiction].
      - destruct p; try contradiction. destruct M1 as [M1 _].
        exists [AsyncProxyModel.ACancel a], (AsyncProxyModel.set_pc sa a (AsyncProxyModel.RI_Drop m)).
        cbn. rewrite M1. cbn. split; auto. rewrite aupd_same. split; [eauto|].
        split; [|intros c; apply alike_pc]. intros b Hb. now apply aupd_other.
      - exists [], sa. cbn. auto. }
    destruct H as (l1 & s1 & R1 & F1 & O1 & C1).
    destruct (IH A1 s1 L2) as (l2 & s2 & R2 & F2 & O2 & C2); auto.
    { eapply fits_frame; [exact M2|]. intros b Hb. split; auto. apply O1. intros ->. auto. }
    exists (l1 ++ l2), s2. split; [exact (arun_app _ _ _ _ _ _ _ R1 R2)|]. split; [|split].
    - cbn. constructor; auto.
      assert (E : apcs s2 a = apcs s1 a) by (apply O2; auto).
      destruct (left x); cbn in *; now rewrite E.
    - intros b Hb. cbn in Hb. rewrite O2 by tauto. apply O1. intros ->. tauto.
    - auto.
  Qed.

  Lemma innermost_sim t F F' c gs sa pend A :
    innermost F t c = Some (F', gs) -> code_ok t c -> ainv sa -> alike (F f) sa ->
    Forall2 (fits pend sa) (code_slots t c) A ->
    exists l sa' h A', arun sa l = Some (sa', h) /\ notes tag pend h = [] /\ last_calls pend h = pend /\
      Forall2 (fits pend sa') (held_slots SlLeft gs) A' /\ (A' = A \/ A' = []) /\
      (forall b, ~ In b A -> apcs sa' b = apcs sa b) /\ alike (F' f) sa'.
  Proof.
    intros H OK I Al M. destruct c as [p|g c p k|gs0 nx]; cbn in H; [| |discriminate].
    { injection H as <- <-. cbn in M. inversion M; subst. exists [], sa, [], []. cbn. auto 10. }
    destruct (at_await p) as [h|] eqn:E; [|discriminate]. injection H as <- <-.
    cbn in OK, M. destruct OK as (_ & OKf & _).
    destruct (Nat.eqb_spec g f) as [->|N]; cbn in M.
    2: { inversion M; subst. exists [], sa, [], []. cbn. rewrite upd_other by auto.
         repeat split; auto; try apply Al. destruct h; cbn; auto;
         destruct (Nat.eqb_spec g f); try contradiction; auto. }
    destruct (OKf eq_refl) as (Z & (o & ->) & B & _). rewrite upd_same.
    assert (Al' : alike (set_lock (F f) (lw (F f)) (lr (F f)) (unqueue t (lq (F f)))) sa)
      by (destruct Al; constructor; cbn; auto).
    cbn in B, M. destruct (reaches inside t o) eqn:Rc.
    2: { specialize (B eq_refl). destruct p; cbn in B, E; try contradiction; discriminate. }
    inversion M as [|x a xs A1 M1 M2]; subst. inversion M2; subst. destruct M1 as [M1 _].
    assert (K : forall q m, AsyncProxyModel.cancel (apcs sa a) = Some q ->
       (h = HNone /\ q = AsyncProxyModel.Ret HNone RCancelled) \/ (h = HM /\ q = AsyncProxyModel.RI_Drop m) ->
      exists l sa' h0 A', arun sa l = Some (sa', h0) /\ notes tag pend h0 = [] /\ last_calls pend h0 = pend /\
      Forall2 (fits pend sa') (held_slots SlLeft (keep f h [])) A' /\ (A' = [a] \/ A' = []) /\
      (forall b, ~ In b [a] -> apcs sa' b = apcs sa b) /\
      alike (set_lock (F f) (lw (F f)) (lr (F f)) (unqueue t (lq (F f)))) sa').
    { intros q m C [[-> ->]|[-> ->]].
      - eexists [AsyncProxyModel.ACancel a; AsyncProxyModel.AStep a], _, _, [].
        split; [cbn; rewrite C; cbn; unfold AsyncProxyModel.step_code; cbn; rewrite ?aupd_same; cbn; reflexivity|].
        cbn. unfold noted_ret. rewrite andb_false_r. cbn. repeat split; auto; try apply Al'.
        intros b Hb. rewrite !aupd_other; auto; intros ->; apply Hb; auto.
      - eexists [AsyncProxyModel.ACancel a], _, _, [a].
        split; [cbn; rewrite C; cbn; reflexivity|].
        cbn. rewrite Nat.eqb_refl. cbn. repeat split; auto; try apply Al'.
        + constructor; [|constructor]. cbn. rewrite aupd_same. eauto.
        + intros b Hb. rewrite !aupd_other; auto; intros ->; apply Hb; auto. }
    destruct p; cbn in E, Z; try discriminate; injection E as <-; cbn in M1; rewrite M1 in K;
      (eapply (K _ (trm MRead)); [reflexivity|solve [auto]]) ||
      (eapply (K _ (trm m)); [reflexivity|solve [auto]]).
  Qed.

  Lemma held_slots_app mk l1 l2 : held_slots mk (l1 ++ l2) = held_slots mk l1 ++ held_slots mk l2.
  Proof. apply flat_map_app. Qed.

  Lemma left_held l : map left (held_slots SlHeld l) = held_slots SlLeft l /\
    Forall leavable (held_slots SlHeld l).
  Proof.
    induction l as [|[g h] l [IH1 IH2]]; cbn; auto. destruct (Nat.eqb g f); cbn; auto.
    split; [now f_equal|]. constructor; cbn; auto.
  Qed.

  Lemma left_frame fr : map left (frame_slots fr) = held_slots SlLeft ((fr_field fr, HM) :: fr_held fr) /\
    Forall leavable (frame_slots fr).
  Proof.
    destruct (left_held (fr_held fr)) as [E1 E2]. unfold frame_slots. cbn.
    destruct (Nat.eqb (fr_field fr) f); cbn; auto.
    split; [now f_equal|]. constructor; cbn; auto.
  Qed.

  Lemma unwind_slots n : forall st gs fr st', unwind n st = Some (gs, fr, st') ->
    exists X, flat_map frame_slots st = X ++ held_slots SlHeld (fr_held fr) ++ flat_map frame_slots st' /\
      Forall leavable X /\ map left X = held_slots SlLeft gs /\ incl (fr :: st') st.
  Proof.
    induction n as [|n IH]; intros [|fr0 st] gs fr st'; cbn; try discriminate.
    - intros [= <- <- <-]. unfold frame_slots at 1.
      exists (if Nat.eqb (fr_field fr0) f
              then [SlCall (op_of (fr_call fr0)) (AsyncProxyModel.RI_Build (trm (fr_mode fr0)))] else []).
      split; [now rewrite <- app_assoc|]. cbn.
      destruct (Nat.eqb (fr_field fr0) f); cbn; auto using incl_refl.
      split; [repeat constructor|auto using incl_refl].
    - destruct (unwind n st) as [[[gs1 fr1] st1]|] eqn:E; [|discriminate].
      intros [= <- <- <-]. destruct (IH _ _ _ _ E) as (X & X1 & X2 & X3 & X4).
      destruct (left_frame fr0) as [L1 L2].
      exists (frame_slots fr0 ++ X). split; [rewrite X1; now rewrite <- app_assoc|].
      split; [apply Forall_app; auto|]. split.
      + rewrite map_app, L1, X3, <- held_slots_app. reflexivity.
      + apply incl_tl; auto.
  Qed.

  Lemma unwind_all_slots st : Forall leavable (flat_map frame_slots st) /\
    map left (flat_map frame_slots st) = held_slots SlLeft (unwind_all st).
  Proof.
    induction st as [|fr st [IH1 IH2]]; cbn; auto.
    destruct (left_frame fr) as [L1 L2]. split; [apply Forall_app; auto|].
    rewrite map_app, L1, IH2, <- held_slots_app. reflexivity.
  Qed.

  Lemma drop_sim t th th' F F' gs X Y sa pend n A :
    local t th sa pend n A -> field_ok (F f) sa n ->
    innermost F t (code_of th) = Some (F', gs) ->
    slots t th = code_slots t (code_of th) ++ X ++ Y -> Forall leavable X ->
    slots t th' = held_slots SlLeft gs ++ map left X ++ Y -> task_ok t th' ->
    simulated t F' th' [] sa pend n.
  Proof.
    intros (L1 & L2 & L3 & L4) (K1 & K2 & K3) H S LX S' T.
    rewrite S in L2. apply Forall2_app_inv_l in L2 as (A1 & A' & M1 & M2 & ->).
    apply Forall2_app_inv_l in M2 as (A2 & A3 & M2 & M3 & ->).
    destruct L1 as [L1 _].
    destruct (innermost_sim _ _ _ _ _ _ _ _ H L1 K1 K2 M1) as (l1 & s1 & h1 & A1' & R1 & N1 & P1 & F1 & D1 & O1 & C1).
    assert (ND : NoDup A1 /\ NoDup (A2 ++ A3) /\ (forall b, In b A1 -> ~ In b (A2 ++ A3))).
    { clear - L3. induction A1 as [|x A1 IH]; cbn in *; [split; [constructor|auto]|].
      inversion L3 as [|? ? N1 N2]; subst. destruct (IH N2) as (I1 & I2 & I3).
      split; [constructor; auto; intros Hx; apply N1; apply in_app_iff; auto|]. split; auto.
      intros b [<-|Hb]; auto. intros Hx. apply N1. apply in_app_iff; auto. }
    destruct ND as (ND1 & ND2 & ND3).
    assert (ND' : NoDup A2 /\ NoDup A3 /\ (forall b, In b A2 -> ~ In b A3)).
    { clear - ND2. induction A2 as [|x A2 IH]; cbn in *; [split; [constructor|auto]|].
      inversion ND2 as [|? ? N1 N2]; subst. destruct (IH N2) as (I1 & I2 & I3).
      split; [constructor; auto; intros Hx; apply N1; apply in_app_iff; auto|]. split; auto.
      intros b [<-|Hb]; auto. intros Hx. apply N1. apply in_app_iff; auto. }
    destruct ND' as (ND4 & ND5 & ND6).
    assert (Q1 : forall b, In b (A2 ++ A3) -> apcs s1 b = apcs sa b).
    { intros b Hb. apply O1. intros Hc. exact (ND3 _ Hc Hb). }
    destruct (leave_all pend X A2 s1 LX) as (l2 & s2 & R2 & F2 & O2 & C2); auto.
    { eapply fits_frame; [exact M2|]. intros b Hb. split; auto. apply Q1. apply in_app_iff; auto. }
    pose proof (arun_app _ _ _ _ _ _ _ R1 R2) as R. rewrite app_nil_r in R.
    assert (Inc : forall b, In b A1' -> In b A1) by (destruct D1 as [-> | ->]; [auto|intros b []]).
    assert (Oth : forall b, ~ In b (A1 ++ A2) -> apcs s2 b = apcs sa b).
    { intros b Hb. rewrite O2, O1; auto; intros Hc; apply Hb; apply in_app_iff; auto. }
    exists (l1 ++ l2), s2, h1, n, (A1' ++ A2 ++ A3). split; auto. split; auto. split; auto.
    rewrite P1. split; [|split].
    - split; auto. rewrite S'. split; [|split].
      + apply Forall2_app; [|apply Forall2_app; auto].
        * eapply fits_frame; [exact F1|]. intros b Hb. split; auto. apply O2. intros Hc.
          apply (ND3 b); [auto|]. apply in_app_iff; auto.
        * eapply fits_frame; [exact M3|]. intros b Hb. split; auto. apply Oth.
          intros Hc. apply in_app_iff in Hc as [Hc|Hc]; [|exact (ND6 _ Hc Hb)].
          apply (ND3 b Hc). apply in_app_iff; auto.
      + destruct D1 as [-> | ->]; auto.
      + intros b Hb. apply L4. apply in_app_iff in Hb as [Hb|Hb]; apply in_app_iff; auto.
    - split; [exact (arun_inv _ _ _ _ K1 R)|]. split; auto.
      intros b Hb. rewrite Oth; auto. intros Hc.
      assert (In b (A1 ++ A2 ++ A3)) as Hd by (rewrite app_assoc; apply in_app_iff; auto).
      apply L4 in Hd. lia.
    - intros b Hb. split; auto. apply Oth. intros Hc.
      assert (In b (A1 ++ A2 ++ A3)) as Hd by (rewrite app_assoc; apply in_app_iff; auto).
      apply L4 in Hd. tauto.
  Qed.

  (** ** Every action *)

  Lemma take_guard_slots g l h l' : take_guard g l = Some (h, l') ->
    held_slots SlHeld l = (if Nat.eqb g f then [SlHeld h] else []) ++ held_slots SlHeld l'.
  Proof.
    revert h l'. induction l as [|[x hx] l IH]; cbn [take_guard]; intros h l'; [discriminate|].
    change (held_slots SlHeld ((x, hx) :: l))
      with ((if Nat.eqb x f then [SlHeld hx] else []) ++ held_slots SlHeld l).
    destruct (Nat.eqb_spec x g) as [->|N].
    - intros [= <- <-]. reflexivity.
    - destruct (take_guard g l) as [[h1 l1]|] eqn:E; [|discriminate].
      intros [= <- <-]. rewrite (IH _ _ eq_refl).
      change (held_slots SlHeld ((x, hx) :: l1))
        with ((if Nat.eqb x f then [SlHeld hx] else []) ++ held_slots SlHeld l1).
      destruct (Nat.eqb_spec x f) as [->|N1]; destruct (Nat.eqb_spec g f) as [->|N2]; auto. congruence.
  Qed.

  Lemma enter_same o p : enter (Proxy o) = Some p ->
    AsyncProxyModel.enter HNone o = Some (tr p) /\ lazy_pc p = true.
  Proof. destruct o; cbn; try discriminate; intros [= <-]; cbn; auto. Qed.

  Lemma enter_guard_same h o p : enter_guard h (Proxy o) = Some p ->
    AsyncProxyModel.enter h o = Some (tr p) /\ lazy_pc p = true /\ (p <> K_Acq /\ p <> D_Acq).
  Proof.
    destruct h, o; cbn; try discriminate; intros [= <-]; cbn; split; auto; split; auto;
      split; discriminate.
  Qed.

  Lemma enter_avoids g c p : enter c = Some p ->
    match c with Proxy _ => True | LockRead | LockWrite => g <> f | EqWith h => g <> f /\ h <> f end ->
    g <> f -> pc_avoids f p.
  Proof.
    destruct c as [o| | |h]; cbn; try (intros [= <-]; cbn; tauto).
    destruct o; cbn; try discriminate; intros [= <-]; cbn; auto.
  Qed.

  Lemma enter_guard_avoids h c p : enter_guard h c = Some p -> pc_avoids f p.
  Proof. destruct h, c as [o| | |]; try destruct o; cbn; try discriminate; intros [= <-]; cbn; auto. Qed.

  Lemma hd_of t th sa pend n A x rest : local t th sa pend n A -> slots t th = x :: rest ->
    exists a, hd_error A = Some a /\ fits pend sa x a /\ tag a = t.
  Proof.
    intros (_ & L2 & _ & L4) E. rewrite E in L2. inversion L2; subst. eexists. split; [reflexivity|].
    split; auto. apply L4. now left.
  Qed.

  Lemma pstep_pc F t ins g p F' p' : pstep F t ins g p = Some (F', p') -> p' <> K_Acq /\ p' <> D_Acq.
  Proof.
    destruct p; cbn; unfold blocking_read; try discriminate;
      try (intros H; apply request_pc in H as [-> | ->]; split; discriminate);
      try (intros H; apply served_pc in H as ->; split; discriminate);
      try (destruct ins); repeat match goal with |- context [match ?x with _ => _ end] => destruct x end;
      try (intros H; apply request_pc in H as [-> | ->]; split; discriminate);
      intros [= <- <-]; split; discriminate.
  Qed.

  Variable builder : fid -> nat -> prog.
  Hypothesis builders_lazily : forall g n, lazily f (builder g n).

  Lemma tstep_sim t m th F F' th' ev sa pend n A :
    local t th sa pend n A -> field_ok (F f) sa n ->
    tstep inside builder F t m th = Some (F', th', ev) ->
    simulated t F' th' (call_note inside f t (Go m) th ++ flat_map (event_note inside f) ev) sa pend n.
  Proof.
    intros L K H. pose proof L as ((T1 & T2) & _). pose proof K as (K1 & K2 & K3).
    unfold tstep in H. destruct th as [c hd st]; cbn [code_of held stack] in *.
    destruct c as [[o|g c k]|g c p k|[|[g h] gs] nx].
    - (* the end of a piece of user code *)
      destruct hd as [|[g h] rest].
      + destruct st as [|fr st]; [discriminate|]. injection H as <- <- <-.
        inversion T2 as [|? ? [C1 C2] T3]; subst. cbn [call_note code_of app flat_map event_note].
        destruct (Nat.eqb_spec (fr_field fr) f) as [E|E].
        * destruct (C2 E) as [(o1 & Eo) Rc]. rewrite Eo in Rc |- *. cbn in Rc.
          assert (S0 : slots t (mktask (User (PEnd o)) [] (fr :: st)) =
             SlCall o1 (AsyncProxyModel.RI_Build (trm (fr_mode fr))) ::
             held_slots SlHeld (fr_held fr) ++ flat_map frame_slots st).
          { unfold slots, frame_slots; cbn. rewrite E, Nat.eqb_refl, Eo. reflexivity. }
          destruct (hd_of _ _ _ _ _ _ _ _ L S0) as (a & Ha & [Fa Pa] & Ta).
          eapply (sim_head t _ _ F F) with (a := a)
            (ys := [SlCall o1 (tr (after_build (fr_mode fr) o))])
            (l := [AsyncProxyModel.ABuilt a o]); [exact L|exact K|exact S0| | |exact Ha| |cbn; rewrite Fa; reflexivity| | | | ].
          { unfold slots; cbn. rewrite E, Nat.eqb_refl, Rc. reflexivity. }
          { split; [|exact T3]. cbn. split; auto. split.
            - intros _. rewrite Rc. split; [destruct o; reflexivity|]. split; [eauto|].
              split; [discriminate|]. intros _ _. destruct o; split; discriminate.
            - congruence. }
          { right. eexists. split; [reflexivity|]. cbn. split; [|exact Pa].
            rewrite aupd_same. destruct o; reflexivity. }
          { now apply alike_pc. }
          { intros b Hb. cbn. now apply aupd_other. }
          { reflexivity. }
          { cbn. now rewrite Ta. }
        * eapply (sim_same t _ _ F F); eauto.
          { unfold slots, frame_slots; cbn. destruct (Nat.eqb_spec (fr_field fr) f); [contradiction|reflexivity]. }
          { split; [|exact T3]. cbn. split; auto. split; [congruence|].
            intros _. destruct o; exact Logic.I. }
      + injection H as <- <- <-. cbn [call_note code_of app flat_map].
        destruct (Nat.eqb_spec g f) as [->|E].
        * assert (S0 : slots t (mktask (User (PEnd o)) ((f, h) :: rest) st) =
             SlHeld h :: held_slots SlHeld rest ++ flat_map frame_slots st).
          { unfold slots; cbn. now rewrite Nat.eqb_refl. }
          destruct (hd_of _ _ _ _ _ _ _ _ L S0) as (a & Ha & Fa & Ta).
          destruct (drop_guard F sa pend a t h _ K1 K2 Ta Fa (or_introl eq_refl))
            as (l & sa' & hs & R & Al & O & P & NN).
          eapply (sim_head t _ _ F _ _ _ _ []); eauto. split; auto.
        * eapply (sim_same t _ _ F); eauto.
          { unfold slots; cbn. destruct (Nat.eqb_spec g f); [contradiction|reflexivity]. }
          { split; auto. }
          { rewrite release_away by auto. auto. }
    - (* a call *)
      cbn in T1. destruct T1 as [C1 C2]. cbn [call_note code_of].
      destruct (through_guard c) eqn:G.
      + destruct (take_guard g hd) as [[h l]|] eqn:TG; [|discriminate].
        destruct (enter_guard h c) as [p|] eqn:EG; [|discriminate]. injection H as <- <- <-.
        apply take_guard_slots in TG.
        destruct c as [o| | |]; try discriminate G.
        destruct (enter_guard_same _ _ _ EG) as (EG' & Z & KD).
        assert (Rc : reaches inside t o = true).
        { unfold reaches. destruct o; cbn in G; try discriminate; cbn; now rewrite andb_false_r. }
        rewrite Rc. cbn [flat_map andb]. rewrite app_nil_r.
        destruct (Nat.eqb_spec g f) as [->|E].
        * cbn [andb]. cbn in TG.
          assert (S0 : slots t (mktask (User (PCall f (Proxy o) k)) hd st) =
             SlHeld h :: held_slots SlHeld l ++ flat_map frame_slots st).
          { unfold slots; cbn [code_of held stack]. rewrite TG. reflexivity. }
          destruct (hd_of _ _ _ _ _ _ _ _ L S0) as (a & Ha & Fa & Ta). cbn in Fa.
          eapply (sim_head t _ _ F F) with (a := a) (ys := [SlCall o (tr p)])
            (l := [AsyncProxyModel.ACall a o]); [exact L|exact K|exact S0| | |exact Ha| |cbn; rewrite Fa, EG'; reflexivity| | | | ].
          { unfold slots; cbn. rewrite Nat.eqb_refl, Rc. reflexivity. }
          { split; [|exact T2]. cbn. split; auto. split; [|congruence].
            intros _. rewrite Rc. split; auto. split; [eauto|]. split; [discriminate|auto]. }
          { right. eexists. split; [reflexivity|]. cbn. rewrite aupd_same.
            unfold mark. now rewrite Nat.eqb_refl. }
          { now apply alike_pc. }
          { intros b Hb. cbn. now apply aupd_other. }
          { intros b Hb. cbn. unfold mark. destruct (Nat.eqb_spec b a); [congruence|auto]. }
          { cbn. now rewrite Ta, app_nil_r. }
        * eapply (sim_same t _ _ F F); eauto.
          { unfold slots; cbn [code_of held stack code_slots]. rewrite TG.
            destruct (Nat.eqb_spec g f); [contradiction|reflexivity]. }
          { split; [|exact T2]. cbn. split; auto. split; [congruence|].
            intros _. exact (enter_guard_avoids _ _ _ EG). }
      + destruct (enter c) as [p|] eqn:EN; [|discriminate]. injection H as <- <- <-.
        cbn [flat_map]. rewrite app_nil_r.
        destruct (Nat.eqb_spec g f) as [->|E].
        * destruct c as [o| | |h]; try (destruct C1; congruence); try congruence.
          destruct (enter_same _ _ EN) as (EN' & Z).
          destruct (reaches inside t o) eqn:Rc.
          { eapply (sim_new t _ _ F F _ o (tr p)); eauto.
            - unfold slots; cbn. rewrite Nat.eqb_refl, Rc. reflexivity.
            - split; [|exact T2]. cbn. rewrite Rc. split; auto. split; [|congruence].
              intros _. split; auto. split; [eauto|]. split; [discriminate|].
              intros _ In. unfold reaches in Rc. rewrite In in Rc.
              destruct o; cbn in EN, Rc; try discriminate; injection EN as <-; split; discriminate. }
          { eapply (sim_same t _ _ F F); eauto.
            - unfold slots; cbn. rewrite Nat.eqb_refl, Rc. reflexivity.
            - split; [|exact T2]. cbn. rewrite Rc. split; auto. split; [|congruence].
              intros _. split; auto. split; [eauto|]. split; [|discriminate].
              intros _. unfold reaches in Rc. apply negb_false_iff, andb_true_iff in Rc as [_ Rc].
              destruct o; cbn in EN, Rc; try discriminate; injection EN as <-; exact Logic.I. }
        * eapply (sim_same t _ _ F F); eauto.
          { destruct c; auto. }
          { unfold slots; cbn. destruct (Nat.eqb_spec g f); [contradiction|reflexivity]. }
          { split; [|exact T2]. cbn. split; auto. split; [congruence|].
            intros _. eapply enter_avoids; eauto. }
    - (* a call in progress *)
      cbn in T1. destruct T1 as (C1 & C2 & C3). cbn [call_note code_of app].
      destruct (Nat.eqb_spec g f) as [->|E].
      + destruct (C2 eq_refl) as (Z & (o & ->) & B1 & B2). cbn [op_of] in *. clear C2 C3.
        destruct (reaches inside t o) eqn:Rc.
        * assert (S0 : slots t (mktask (Call f (Proxy o) p k) hd st) =
             SlCall o (tr p) :: held_slots SlHeld hd ++ flat_map frame_slots st).
          { unfold slots; cbn. rewrite Nat.eqb_refl, Rc. reflexivity. }
          destruct (hd_of _ _ _ _ _ _ _ _ L S0) as (a & Ha & [Fa Pa] & Ta).
          assert (STEP : match p with Ret _ _ | I_Build _ => False | _ => True end ->
             match pstep F t (inside t) f p with
             | Some (F'0, p') => Some (F'0, mktask (Call f (Proxy o) p' k) hd st, [])
             | None => None
             end = Some (F', th', ev) ->
             simulated t F' th' (flat_map (event_note inside f) ev) sa pend n).
          { intros NR HS. destruct (pstep F t (inside t) f p) as [[F1 p1]|] eqn:PS; [|discriminate].
            injection HS as <- <- <-.
            destruct (pstep_field f F t (inside t) p F1 p1 sa a K1 K2 Ta Fa Z NR (B2 eq_refl) PS)
              as (Z1 & l & sa' & R & (Al & Pc & O) & _).
            eapply (sim_head t _ _ F F1) with (a := a) (ys := [SlCall o (tr p1)]); eauto.
            - unfold slots; cbn. rewrite Nat.eqb_refl, Rc. reflexivity.
            - split; [|exact T2]. cbn. rewrite Rc. split; auto. split; [|congruence].
              intros _. split; auto. split; [eauto|]. split; [discriminate|].
              intros _ _. exact (pstep_pc _ _ _ _ _ _ _ PS).
            - right. eexists. split; [reflexivity|]. split; auto. }
          destruct p; try (apply STEP; [exact Logic.I|exact H]); clear STEP.
          { (* return *)
            injection H as <- <- <-.
            eapply (sim_head t _ _ F F) with (a := a)
              (ys := match h with HNone => [] | _ => [SlHeld h] end)
              (l := [AsyncProxyModel.AStep a]); [exact L|exact K|exact S0| | |exact Ha| |apply one_step; unfold AsyncProxyModel.step_code; rewrite Fa; reflexivity| | | | ].
            - unfold slots. destruct h; cbn; rewrite ?Nat.eqb_refl; reflexivity.
            - split; [|exact T2]. apply C1.
            - destruct h; auto; right; (eexists; split; [reflexivity|]; cbn; now rewrite aupd_same).
            - now apply alike_pc.
            - intros b Hb. cbn. now apply aupd_other.
            - reflexivity.
            - cbn. rewrite Pa, Ta, Nat.eqb_refl, Rc. reflexivity. }
          { (* the builder starts *)
            injection H as <- <- <-.
            eapply (sim_head t _ _ F F) with (a := a)
              (ys := [SlCall o (AsyncProxyModel.RI_Build (trm m0))])
              (l := [AsyncProxyModel.AStep a]); [exact L|exact K|exact S0| | |exact Ha| |apply one_step; unfold AsyncProxyModel.step_code; rewrite Fa; cbn;
                rewrite (AsyncProxyInv.i_b _ K1); reflexivity| | | | ].
            - unfold slots, frame_slots; cbn. rewrite Nat.eqb_refl. reflexivity.
            - split; [apply builders_lazily|]. constructor; auto. split; auto. cbn. intros _. split; eauto.
            - right. eexists. split; [reflexivity|]. cbn. rewrite aupd_same. auto.
            - now apply alike_pc.
            - intros b Hb. cbn. now apply aupd_other.
            - reflexivity.
            - cbn. rewrite Ta, Nat.eqb_refl. reflexivity. }
        * specialize (B1 eq_refl).
          assert (S0 : forall p', slots t (mktask (Call f (Proxy o) p' k) hd st) =
             held_slots SlHeld hd ++ flat_map frame_slots st).
          { intros p'. unfold slots; cbn. rewrite Nat.eqb_refl, Rc. reflexivity. }
          destruct p; cbn in B1; try contradiction.
          { destruct h; try contradiction. destruct r; try contradiction.
            injection H as <- <- <-. eapply (sim_same t _ _ F F); eauto.
            - cbn. now rewrite Nat.eqb_refl, Rc.
            - split; [apply C1|auto]. }
          { assert (In : inside t = true).
            { unfold reaches in Rc. apply negb_false_iff, andb_true_iff in Rc. tauto. }
            cbn in H. rewrite In in H. injection H as <- <- <-.
            eapply (sim_same t _ _ F F); eauto; [exact (eq_trans (S0 _) (eq_sym (S0 _)))|].
            split; auto. cbn. rewrite Rc. split; auto. split; [|congruence].
            intros _. split; auto. split; [eauto|]. split; [auto|discriminate]. }
          { assert (In : inside t = true).
            { unfold reaches in Rc. apply negb_false_iff, andb_true_iff in Rc. tauto. }
            cbn in H. rewrite In in H. injection H as <- <- <-.
            eapply (sim_same t _ _ F F); eauto; [exact (eq_trans (S0 _) (eq_sym (S0 _)))|].
            split; auto. cbn. rewrite Rc. split; auto. split; [|congruence].
            intros _. split; auto. split; [eauto|]. split; [auto|discriminate]. }
      + clear C2. specialize (C3 E).
        assert (GF : Nat.eqb g f = false) by now apply Nat.eqb_neq.
        assert (STEP : match pstep F t (inside t) g p with
             | Some (F'0, p') => Some (F'0, mktask (Call g c p' k) hd st, [])
             | None => None
             end = Some (F', th', ev) ->
             simulated t F' th' (flat_map (event_note inside f) ev) sa pend n).
        { intros HS. destruct (pstep F t (inside t) g p) as [[F1 p1]|] eqn:PS; [|discriminate].
          injection HS as <- <- <-.
          destruct (pstep_away _ _ _ _ _ _ _ _ E C3 PS) as [EF C3'].
          eapply (sim_same t _ _ F F1); eauto.
          - unfold slots; cbn. now rewrite GF.
          - split; auto. cbn. split; auto. split; [congruence|auto].
          - now rewrite EF. }
        destruct p; try (apply STEP; exact H); clear STEP.
        * injection H as <- <- <-. eapply (sim_same t _ _ F F); eauto.
          { cbn. destruct c; auto. now rewrite GF. }
          { unfold slots; cbn. rewrite GF. destruct h; cbn; rewrite ?GF; reflexivity. }
          { split; auto. apply C1. }
        * injection H as <- <- <-. eapply (sim_same t _ _ F F); eauto.
          { cbn. now rewrite GF. }
          { unfold slots, frame_slots; cbn. now rewrite GF. }
          { split; [apply builders_lazily|]. constructor; auto. split; auto. cbn. congruence. }
    - (* all guards of the dropped futures are gone *)
      destruct nx as [[[g c] k]|]; injection H as <- <- <-; eapply (sim_same t _ _ F F); eauto.
      + cbn. destruct c; auto. unfold noted_ret. now rewrite !andb_false_r.
      + split; [apply T1|auto].
      + split; [exact Logic.I|auto].
    - (* one of them goes *)
      injection H as <- <- <-. cbn [call_note code_of app flat_map].
      destruct (Nat.eqb_spec g f) as [->|E].
      + assert (S0 : slots t (mktask (Leave ((f, h) :: gs) nx) hd st) =
           SlLeft h :: held_slots SlLeft gs ++ held_slots SlHeld hd ++ flat_map frame_slots st).
        { unfold slots; cbn. now rewrite Nat.eqb_refl. }
        destruct (hd_of _ _ _ _ _ _ _ _ L S0) as (a & Ha & Fa & Ta).
        destruct (drop_guard F sa pend a t h _ K1 K2 Ta Fa (or_intror eq_refl))
          as (l & sa' & hs & R & Al & O & P & NN).
        eapply (sim_head t _ _ F _ _ _ _ []); eauto. split; auto.
      + eapply (sim_same t _ _ F); eauto.
        { unfold slots; cbn. destruct (Nat.eqb_spec g f); [contradiction|reflexivity]. }
        { split; auto. }
        { rewrite release_away by auto. auto. }
  Qed.

  Lemma frames_incl t st fr st' : Forall (frame_ok t) st -> incl (fr :: st') st ->
    frame_ok t fr /\ Forall (frame_ok t) st'.
  Proof.
    intros H I. rewrite Forall_forall in H. split; [apply H, I; now left|].
    apply Forall_forall. intros x Hx. apply H, I. now right.
  Qed.

  Lemma drop_call_sim t th F F' th' sa pend n A :
    local t th sa pend n A -> field_ok (F f) sa n ->
    drop_call F t th = Some (F', th') -> simulated t F' th' [] sa pend n.
  Proof.
    intros L K H. pose proof L as ((T1 & T2) & _). unfold drop_call in H.
    destruct (code_of th) as [p|g c p k|gs nx] eqn:E; try discriminate.
    destruct (innermost F t (Call g c p k)) as [[F1 gs]|] eqn:E1; [|discriminate].
    injection H as <- <-.
    eapply (drop_sim t th _ F F1 gs [] (held_slots SlHeld (held th) ++ flat_map frame_slots (stack th))); eauto.
    - now rewrite E.
    - split; auto. cbn. apply T1.
  Qed.

  Lemma drop_frame_sim t th F F' th' i sa pend n A :
    local t th sa pend n A -> field_ok (F f) sa n ->
    drop_frame F t th i = Some (F', th') -> simulated t F' th' [] sa pend n.
  Proof.
    intros L K H. pose proof L as ((T1 & T2) & _). unfold drop_frame in H.
    destruct (innermost F t (code_of th)) as [[F1 gs]|] eqn:E1; [|discriminate].
    destruct (unwind i (stack th)) as [[[gs' fr] st]|] eqn:E2; [|discriminate].
    injection H as <- <-.
    destruct (unwind_slots _ _ _ _ _ E2) as (X & X1 & X2 & X3 & X4).
    destruct (frames_incl _ _ _ _ T2 X4) as [Ok1 Ok2].
    destruct (left_held (held th)) as [H1 H2].
    eapply (drop_sim t th _ F F1 gs (held_slots SlHeld (held th) ++ X)
              (held_slots SlHeld (fr_held fr) ++ flat_map frame_slots st)); eauto.
    - unfold slots. rewrite X1, <- app_assoc. reflexivity.
    - apply Forall_app; auto.
    - unfold slots. cbn [code_of held stack code_slots].
      rewrite !held_slots_app, map_app, H1, X3, <- !app_assoc. reflexivity.
    - split; auto. cbn. apply Ok1.
  Qed.

  Lemma act_sim t a th F F' th' ev sa pend n A :
    local t th sa pend n A -> field_ok (F f) sa n ->
    act_step inside builder F t a th = Some (F', th', ev) ->
    simulated t F' th' (call_note inside f t a th ++ flat_map (event_note inside f) ev) sa pend n.
  Proof.
    intros L K H. destruct a as [m| |i|]; unfold act_step in H; cbv zeta in H.
    - eapply tstep_sim; eauto.
    - destruct (length (stack th)) as [|k];
        [destruct (drop_call F t th) as [[F1 th1]|] eqn:E
        |destruct (drop_frame F t th k) as [[F1 th1]|] eqn:E]; try discriminate H;
        cbn in H; injection H as <- <- <-; cbn.
      + eapply drop_call_sim; eauto.
      + eapply drop_frame_sim; eauto.
    - destruct i as [|i].
      + destruct (stack th); [discriminate|].
        destruct (drop_call F t th) as [[F1 th1]|] eqn:E; [|discriminate].
        injection H as <- <- <-. cbn. eapply drop_call_sim; eauto.
      + destruct (S i <? length (stack th)); [|discriminate].
        destruct (drop_frame F t th i) as [[F1 th1]|] eqn:E; [|discriminate].
        injection H as <- <- <-. cbn. eapply drop_frame_sim; eauto.
    - destruct (finished th); [discriminate|].
      destruct (innermost F t (code_of th)) as [[F1 gs]|] eqn:E1; [|discriminate].
      injection H as <- <- <-. cbn.
      destruct (left_held (held th)) as [H1 H2]. destruct (unwind_all_slots (stack th)) as [U1 U2].
      eapply (drop_sim t th _ F F1 gs (held_slots SlHeld (held th) ++ flat_map frame_slots (stack th)) []); eauto.
      + unfold slots. now rewrite app_nil_r.
      + apply Forall_app; auto.
      + unfold slots. cbn [code_of held stack code_slots].
        rewrite !held_slots_app, map_app, H1, U2. cbn. now rewrite !app_nil_r.
      + split; cbn; auto.
  Qed.

  (** ** Runs *)

  Definition matches (s : sys) (sa : ast) (pend : aid -> op nat) (n : nat) : Prop :=
    (forall t th, nth_error (tasks s) t = Some th -> exists A, local t th sa pend n A) /\
    field_ok (fields s f) sa n.

  Lemma notes_app h1 : forall pend h2,
    notes tag pend (h1 ++ h2) = notes tag pend h1 ++ notes tag (last_calls pend h1) h2.
  Proof.
    induction h1 as [|e h1 IH]; intros pend h2; cbn; auto.
    destruct e; cbn; rewrite IH, ?app_assoc; auto.
  Qed.
  Lemma last_calls_app h1 : forall pend h2,
    last_calls pend (h1 ++ h2) = last_calls (last_calls pend h1) h2.
  Proof. induction h1 as [|e h1 IH]; intros pend h2; cbn; auto. destruct e; cbn; apply IH. Qed.

  Lemma nth_set_same {X} (l : list X) i x y : nth_error l i = Some y -> nth_error (set_nth i l x) i = Some x.
  Proof. revert i. induction l as [|z l IH]; intros [|i]; cbn; try discriminate; auto. Qed.
  Lemma nth_set_other {X} (l : list X) i j x : i <> j -> nth_error (set_nth i l x) j = nth_error l j.
  Proof. revert i j. induction l as [|z l IH]; intros [|i] [|j] N; cbn; auto; try congruence. Qed.

  Lemma step_sim s a s' ev sa pend n : matches s sa pend n ->
    step inside builder s a = Some (s', ev) ->
    exists l sa' h n', arun sa l = Some (sa', h) /\ matches s' sa' (last_calls pend h) n' /\
      exists th, nth_error (tasks s) (fst a) = Some th /\
      notes tag pend h = call_note inside f (fst a) (snd a) th ++ flat_map (event_note inside f) ev.
  Proof.
    intros [M K] H. unfold step in H.
    destruct (nth_error (tasks s) (fst a)) as [th|] eqn:Et; [|discriminate].
    destruct (act_step inside builder (fields s) (fst a) (snd a) th) as [[[F' th'] ev']|] eqn:Ea; [|discriminate].
    injection H as <- <-. destruct (M _ _ Et) as [A L].
    destruct (act_sim _ _ _ _ _ _ _ _ _ _ _ L K Ea) as (l & sa' & h & n' & A' & R & N & Le & L' & K' & O).
    exists l, sa', h, n'. split; auto. split; [|eauto]. split; auto. cbn.
    intros u thu Hu. destruct (Nat.eq_dec (fst a) u) as [<-|D].
    - erewrite nth_set_same in Hu by eauto. injection Hu as <-. eauto.
    - rewrite nth_set_other in Hu by auto. destruct (M _ _ Hu) as [Au (U1 & U2 & U3 & U4)].
      exists Au. split; auto. split; [|split; auto].
      + eapply fits_frame; [exact U2|]. intros b Hb. apply O. destruct (U4 b Hb). congruence.
      + intros b Hb. destruct (U4 b Hb). split; auto. lia.
  Qed.

  Lemma run_sim l : forall s s' ev sa pend n, matches s sa pend n ->
    run inside builder s l = Some (s', ev) ->
    exists la sa' h n', arun sa la = Some (sa', h) /\ matches s' sa' (last_calls pend h) n' /\
      notes tag pend h = story inside builder f s l.
  Proof.
    induction l as [|a l IH]; intros s s' ev sa pend n M H; cbn [run] in H.
    - injection H as <- <-. exists [], sa, [], n. cbn. auto.
    - destruct (step inside builder s a) as [[s1 e1]|] eqn:E; [|discriminate].
      destruct (run inside builder s1 l) as [[s2 e2]|] eqn:E2; [|discriminate].
      injection H as <- <-.
      destruct (step_sim _ _ _ _ _ _ _ M E) as (la & sa1 & h1 & n1 & R1 & M1 & th & Et & N1).
      destruct (IH _ _ _ _ _ _ M1 E2) as (lb & sa2 & h2 & n2 & R2 & M2 & N2).
      exists (la ++ lb), sa2, (h1 ++ h2), n2. split; [exact (arun_app _ _ _ _ _ _ _ R1 R2)|].
      split; [now rewrite last_calls_app|].
      rewrite notes_app, N1, N2. cbn [story]. rewrite Et, E. now rewrite app_assoc.
  Qed.

  Lemma matches_start v0 ps : Forall (lazily f) ps ->
    matches (start v0 ps) (AsyncProxyModel.init (v0 f)) no_calls 0.
  Proof.
    intros P. split.
    - intros t th H. unfold start in H. cbn in H. rewrite nth_error_map in H.
      destruct (nth_error ps t) as [p|] eqn:E; [|discriminate]. injection H as <-.
      exists []. split; [|split; [constructor|split; [constructor|intros a []]]].
      split; [|constructor]. cbn. rewrite Forall_forall in P. apply P. eapply nth_error_In; eauto.
    - split; [apply AsyncProxyInv.inv_init|]. split; [|reflexivity].
      constructor; cbn; auto. constructor.
  Qed.

  Theorem field_run v0 ps l s ev : Forall (lazily f) ps ->
    run inside builder (start v0 ps) l = Some (s, ev) ->
    exists la sa h, arun (AsyncProxyModel.init (v0 f)) la = Some (sa, h) /\
      alike (fields s f) sa /\
      notes tag no_calls h = story inside builder f (start v0 ps) l.
  Proof.
    intros P R. destruct (run_sim _ _ _ _ _ _ _ (matches_start v0 ps P) R)
      as (la & sa & h & n & R1 & (_ & _ & K & _) & N). eauto 10.
  Qed.

  (** ** Guards keep writers out *)

  Lemma release_value F t g h x : value (release F t g h x) = value (F x) /\ flag (release F t g h x) = flag (F x).
  Proof.
    destruct h; cbn; auto; unfold upd; destruct (Nat.eqb_spec x g) as [->|]; auto.
  Qed.
  Lemma request_value F t g w y n F' p' x : request F t g w y n = Some (F', p') ->
    value (F' x) = value (F x) /\ flag (F' x) = flag (F x).
  Proof.
    unfold request.
    repeat match goal with |- context [match ?x with _ => _ end] => destruct x end;
      intros [= <- <-]; unfold upd; destruct (Nat.eqb_spec x g) as [->|]; auto;
      try (destruct w; auto).
  Qed.
  Lemma served_value F t g w y F' p' x : served F t g w y = Some (F', p') ->
    value (F' x) = value (F x) /\ flag (F' x) = flag (F x).
  Proof.
    unfold served.
    repeat match goal with |- context [match ?x with _ => _ end] => destruct x end;
      try discriminate; intros [= <- <-]; unfold upd; destruct (Nat.eqb_spec x g) as [->|]; auto;
      try (destruct w; auto).
  Qed.

  Notation lockof := (@AsyncProxyInv.lockof nat nat).

  Lemma pstep_writes F t ins p F' p' : lazy_pc p = true -> pstep F t ins f p = Some (F', p') ->
    (value (F' f) = value (F f) /\ flag (F' f) = flag (F f)) \/ lockof (tr p) = AsyncProxyInv.LW.
  Proof.
    intros Z H. destruct p; cbn in Z, H; unfold blocking_read in H;
      try discriminate Z; try discriminate H; try (right; reflexivity); left;
      try (match type of H with context [if ins then _ else _] => destruct ins end;
           [injection H as <- <-; auto; fail|]);
      try exact (request_value _ _ _ _ _ _ _ _ _ H); try exact (served_value _ _ _ _ _ _ _ _ H);
      repeat match type of H with context [match ?x with _ => _ end] => destruct x eqn:?; try discriminate H end;
      injection H as <- <-; rewrite ?upd_same; auto; apply release_value.
  Qed.

  Lemma tstep_writes t m th F F' th' ev sa pend n A :
    local t th sa pend n A ->
    tstep inside builder F t m th = Some (F', th', ev) ->
    (value (F' f) = value (F f) /\ flag (F' f) = flag (F f) /\ ~ In (TStart t f) ev) \/
    exists a, In a A /\ lockof (apcs sa a) = AsyncProxyInv.LW.
  Proof.
    intros L H. pose proof L as ((T1 & _) & _).
    unfold tstep in H. destruct th as [c hd st]. cbn [code_of held stack] in *.
    destruct c as [[o|g c k]|g c p k|[|[g h] gs] nx].
    - left. destruct hd as [|[g h] rest].
      + destruct st as [|fr st]; [discriminate|]. injection H as <- <- <-. split; auto. split; auto.
        intros [X|[]]. discriminate.
      + injection H as <- <- <-. destruct (release_value F t g h f) as [-> ->]. auto.
    - left. destruct (through_guard c).
      + destruct (take_guard g hd) as [[h l]|]; [|discriminate].
        destruct (enter_guard h c) as [p|]; [|discriminate]. injection H as <- <- <-. auto.
      + destruct (enter c) as [p|]; [|discriminate]. injection H as <- <- <-. auto.
    - cbn in T1. destruct T1 as (_ & C2 & C3).
      destruct (Nat.eqb_spec g f) as [->|E].
      + destruct (C2 eq_refl) as (Z & (o & ->) & B1 & _). cbn [op_of] in *.
        assert (STEP :
             match pstep F t (inside t) f p with
             | Some (F'0, p') => Some (F'0, mktask (Call f (Proxy o) p' k) hd st, @nil tevent)
             | None => None
             end = Some (F', th', ev) ->
             (value (F' f) = value (F f) /\ flag (F' f) = flag (F f) /\ ~ In (TStart t f) ev) \/
             lockof (tr p) = AsyncProxyInv.LW).
        { intros HS. destruct (pstep F t (inside t) f p) as [[F1 p1]|] eqn:PS; [|discriminate].
          injection HS as <- <- <-.
          destruct (pstep_writes _ _ _ _ _ _ Z PS) as [[-> ->]|W]; auto. }
        assert (ALL : (value (F' f) = value (F f) /\ flag (F' f) = flag (F f) /\ ~ In (TStart t f) ev) \/
             lockof (tr p) = AsyncProxyInv.LW).
        { destruct p; try (apply STEP; exact H); clear STEP; injection H as <- <- <-.
          - left. split; auto. split; auto. intros [X|[]]. discriminate.
          - right. reflexivity. }
        destruct ALL as [ALL|W]; auto. right.
        destruct (reaches inside t o) eqn:Rc.
        * assert (S0 : exists rest, slots t (mktask (Call f (Proxy o) p k) hd st) = SlCall o (tr p) :: rest).
          { eexists. unfold slots; cbn. rewrite Nat.eqb_refl, Rc. reflexivity. }
          destruct S0 as (rest & S0).
          destruct (hd_of _ _ _ _ _ _ _ _ L S0) as (a & Ha & (Fa & _) & _).
          exists a. rewrite Fa. split; auto. destruct A; [discriminate|injection Ha as ->; now left].
        * specialize (B1 eq_refl). destruct p; cbn in B1, W; try contradiction; try discriminate.
          destruct h; try contradiction; discriminate.
      + specialize (C3 E). left.
        assert (STEP : match pstep F t (inside t) g p with
             | Some (F'0, p') => Some (F'0, mktask (Call g c p' k) hd st, @nil tevent)
             | None => None
             end = Some (F', th', ev) ->
             value (F' f) = value (F f) /\ flag (F' f) = flag (F f) /\ ~ In (TStart t f) ev).
        { intros HS. destruct (pstep F t (inside t) g p) as [[F1 p1]|] eqn:PS; [|discriminate].
          injection HS as <- <- <-.
          destruct (pstep_away _ _ _ _ _ _ _ _ E C3 PS) as [-> _]. auto. }
        destruct p; try (apply STEP; exact H); clear STEP; injection H as <- <- <-;
          (split; auto; split; auto; intros [X|[]]; congruence).
    - left. destruct nx as [[[g c] k]|]; injection H as <- <- <-; auto.
      split; auto. split; auto. intros [X|[]]. discriminate.
    - left. injection H as <- <- <-. destruct (release_value F t g h f) as [-> ->]. auto.
  Qed.

  Lemma innermost_value F t c F' gs x : innermost F t c = Some (F', gs) ->
    value (F' x) = value (F x) /\ flag (F' x) = flag (F x).
  Proof.
    destruct c as [p|g c p k|gs0 nx]; cbn; [|destruct (at_await p); [|discriminate]|discriminate];
      intros [= <- <-]; auto.
    unfold upd. destruct (Nat.eqb_spec x g) as [->|]; auto.
  Qed.

  Lemma drop_call_value F t th F' th' x : drop_call F t th = Some (F', th') ->
    value (F' x) = value (F x) /\ flag (F' x) = flag (F x).
  Proof.
    unfold drop_call. destruct (code_of th) as [p|g c p k|gs nx]; try discriminate.
    destruct (innermost F t (Call g c p k)) as [[F1 gs]|] eqn:E; [|discriminate].
    intros [= <- <-]. exact (innermost_value _ _ _ _ _ _ E).
  Qed.

  Lemma drop_frame_value F t th i F' th' x : drop_frame F t th i = Some (F', th') ->
    value (F' x) = value (F x) /\ flag (F' x) = flag (F x).
  Proof.
    unfold drop_frame. destruct (innermost F t (code_of th)) as [[F1 gs]|] eqn:E; [|discriminate].
    destruct (unwind i (stack th)) as [[[gs' fr] st]|]; [|discriminate].
    intros [= <- <-]. exact (innermost_value _ _ _ _ _ _ E).
  Qed.

  Lemma act_writes t m th F F' th' ev sa pend n A :
    local t th sa pend n A ->
    act_step inside builder F t m th = Some (F', th', ev) ->
    (value (F' f) = value (F f) /\ flag (F' f) = flag (F f) /\ ~ In (TStart t f) ev) \/
    exists a, In a A /\ lockof (apcs sa a) = AsyncProxyInv.LW.
  Proof.
    intros L H. destruct m as [m| |i|]; unfold act_step in H; cbv zeta in H.
    { eapply tstep_writes; eauto. }
    all: left.
    - destruct (length (stack th)) as [|k];
        [destruct (drop_call F t th) as [[F1 th1]|] eqn:E|destruct (drop_frame F t th k) as [[F1 th1]|] eqn:E];
        try discriminate H; cbn in H; injection H as <- <- <-;
        apply drop_call_value with (x := f) in E || apply drop_frame_value with (x := f) in E;
        destruct E; auto.
    - destruct i as [|i].
      + destruct (stack th); [discriminate|].
        destruct (drop_call F t th) as [[F1 th1]|] eqn:E; [|discriminate]. injection H as <- <- <-.
        apply drop_call_value with (x := f) in E. destruct E; auto.
      + destruct (S i <? length (stack th)); [|discriminate].
        destruct (drop_frame F t th i) as [[F1 th1]|] eqn:E; [|discriminate]. injection H as <- <- <-.
        apply drop_frame_value with (x := f) in E. destruct E; auto.
    - destruct (finished th); [discriminate|].
      destruct (innermost F t (code_of th)) as [[F1 gs]|] eqn:E; [|discriminate]. injection H as <- <- <-.
      apply innermost_value with (x := f) in E. destruct E; auto.
  Qed.

  Lemma held_slot h l : In (f, h) l -> In (SlHeld h) (held_slots SlHeld l).
  Proof.
    intros H. unfold held_slots. apply in_flat_map. exists (f, h). split; auto.
    cbn. rewrite Nat.eqb_refl. now left.
  Qed.

  Lemma keeps_slot h t th :
    In (f, h) (held th) \/ (exists fr, In fr (stack th) /\ In (f, h) (fr_held fr)) ->
    In (SlHeld h) (slots t th).
  Proof.
    intros K. unfold slots. rewrite !in_app_iff. right.
    destruct K as [K|(fr & K1 & K2)]; [left; now apply held_slot|right].
    apply in_flat_map. exists fr. split; auto. unfold frame_slots. rewrite in_app_iff. right.
    now apply held_slot.
  Qed.

  Lemma fits_in pend sa xs A x : Forall2 (fits pend sa) xs A -> In x xs ->
    exists a, In a A /\ fits pend sa x a.
  Proof.
    induction 1 as [|y a xs A H1 _ IH]; intros H; [destruct H|destruct H as [->|H]].
    - exists a. cbn. auto.
    - destruct (IH H) as (b & I & Fb). exists b. cbn. auto.
  Qed.

  Theorem guards_keep_out v0 ps l s ev u thu h t m s' ev' : Forall (lazily f) ps ->
    run inside builder (start v0 ps) l = Some (s, ev) ->
    nth_error (tasks s) u = Some thu -> h <> HNone ->
    In (f, h) (held thu) \/ (exists fr, In fr (stack thu) /\ In (f, h) (fr_held fr)) ->
    u <> t \/ h = HR ->
    step inside builder s (t, m) = Some (s', ev') ->
    value (fields s' f) = value (fields s f) /\ flag (fields s' f) = flag (fields s f) /\
    ~ In (TStart t f) ev'.
  Proof.
    intros P R Eu Nh K D S.
    destruct (run_sim _ _ _ _ _ _ _ (matches_start v0 ps P) R)
      as (la & sa & h0 & n & _ & (M & I & Al & _) & _).
    destruct (M _ _ Eu) as (Au & U1 & U2 & _ & U4).
    destruct (fits_in _ _ _ _ _ U2 (keeps_slot _ _ _ K)) as (b & Ib & Fb). cbn in Fb.
    unfold step in S. cbn [fst snd] in S.
    destruct (nth_error (tasks s) t) as [th|] eqn:Et; [|discriminate].
    destruct (act_step inside builder (fields s) t m th) as [[[F' th'] ev1]|] eqn:Ea; [|discriminate].
    injection S as <- <-. destruct (M _ _ Et) as (A & L).
    destruct (act_writes _ _ _ _ _ _ _ _ _ _ _ L Ea) as [W|(a & Ia & W)]; auto.
    exfalso. destruct L as (_ & _ & _ & L4).
    assert (N : b <> a).
    { intros ->. destruct D as [D| ->].
      - destruct (L4 _ Ia), (U4 _ Ib). congruence.
      - rewrite Fb in W. discriminate. }
    pose proof (AsyncProxyInv.alone _ _ _ I W N) as X. rewrite Fb in X. destruct h; try discriminate; auto.
  Qed.
End Field.
