(** Threads and builders that keep to an order finish (proof support for property
    C09). *)
From Coq Require Import List Bool Arith Lia.
From Verif Require Import ProxyTypes MultiSpec MultiModel MultiOwn MultiOrder.
Import ListNotations.

(** How far a call is from its end. *)
Definition left_of (p : pc) : nat :=
  match p with
  | Ret _ _ => 0
  | I_Acq _ => 20 | I_Check _ => 19 | I_Upg _ => 18 | I_Drain _ => 17 | I_Recheck _ => 16
  | I_Build _ => 15 | I_SetVal _ _ => 14 | I_SetFlag _ => 13 | I_Down _ => 12 | I_Done _ => 11
  | I_Fail _ _ => 11 | I_Unwind _ => 11
  | R_Map _ => 5 | M_Upg _ => 10 | M_Drain _ => 9 | M_Map _ => 8
  | W_Acq => 2 | W_Drain => 1
  | C_Acq => 5 | C_Drain => 4 | C_Flag => 3 | C_Take => 2 | C_Rel _ => 1
  | L_Load => 1
  | K_Acq => 4 | K_Val => 3 | K_Flag _ => 2 | K_Rel _ _ => 1
  | D_Acq => 3 | D_Val => 2 | D_Rel _ => 1
  | Q_Acq _ => 5 | Q_Acq2 _ => 4 | Q_Cmp _ => 3 | Q_Rel2 _ _ => 2 | Q_Rel _ => 1
  | LR_Acq => 6 | LR_Map => 5 | LW_Acq => 10 | LW_Drain => 9 | LW_Map => 8
  | G_Get _ => 1 | G_Set _ => 1 | S_Flag _ => 2 | S_Rep _ => 1 | X_Flag => 2 | X_Take => 1
  | G_Drop _ => 1
  end.

Lemma pstep_left F t f p F' p' : pstep F t f p = Some (F', p') -> left_of p' < left_of p.
Proof.
  intros S. destruct p; simpl in S; try discriminate S; cases_of S; try discriminate S;
    inversion S; subst; simpl; lia.
Qed.

Lemma after_build_left m o : left_of (after_build m o) < left_of (I_Build m).
Proof. destruct o; simpl; lia. Qed.

Section Term.
  Variable rank : fid -> nat.
  Variable builder : fid -> nat -> prog.
  Hypothesis B : builders_orderly rank builder.

  Definition lstep (th' th : thread) : Prop :=
    thread_ok rank th /\ exists F t n F' ev, tstep builder F t n th = Some (F', th', ev).

  (** Whatever waits on the stack will be done once the current code ends. *)
  Definition rest_ends (st : list frame) : Prop :=
    forall o, Acc lstep (mkthread (User (PEnd o)) [] st).

  Lemma end_acc st l o : rest_ends st -> Acc lstep (mkthread (User (PEnd o)) l st).
  Proof.
    intros K. induction l as [|[f h] l IH]; [apply K|].
    constructor. intros y (_ & F & t & n & F' & ev & S). unfold tstep in S. simpl in S.
    inversion S; subst. exact IH.
  Qed.

  Definition build_ends (f : fid) : Prop :=
    forall n st, bound rank st = Some (rank f) -> rest_ends st ->
      Acc lstep (mkthread (User (builder f n)) [] st).

  Lemma call_acc st f k :
    (forall r l, Acc lstep (mkthread (User (k r)) l st)) ->
    (forall g, (forall n, bound rank st = Some n -> rank g < n) -> build_ends g) ->
    forall N p l, left_of p <= N -> Acc lstep (mkthread (Call f p k) l st).
  Proof.
    intros HK HB. induction N as [N IH] using (well_founded_induction lt_wf).
    intros p l LE. constructor. intros y (OK & F & t & n & F' & ev & S).
    unfold tstep in S. simpl in S.
    assert (P : forall F1 p1, pstep F t f p = Some (F1, p1) ->
                Some (F1, mkthread (Call f p1 k) l st, @nil bevent) = Some (F', y, ev) -> Acc lstep y).
    { intros F1 p1 E1 E2. inversion E2; subst. apply pstep_left in E1.
      eapply (IH (left_of p1)); lia. }
    destruct p;
      try (destruct (pstep F t f _) as [[F1 p1]|] eqn:E1 in S; [|discriminate S];
           eapply P; [exact E1|exact S]).
    - inversion S; subst. apply HK.
    - inversion S; subst. destruct OK as [(C1 & _ & _) _]. specialize (C1 eq_refl). simpl in C1.
      apply HB; [apply C1|reflexivity|].
      intros o. constructor. intros y (_ & F1 & t1 & n1 & F2 & ev & S1).
      unfold tstep in S1. simpl in S1. inversion S1; subst.
      pose proof (after_build_left m o). eapply (IH (left_of (after_build m o))); lia.
  Qed.

  Lemma prog_acc st :
    rest_ends st ->
    (forall g, (forall n, bound rank st = Some n -> rank g < n) -> build_ends g) ->
    forall p l, Acc lstep (mkthread (User p) l st).
  Proof.
    intros K HB. induction p as [o|f c k IH]; intros l; [apply end_acc; exact K|].
    constructor. intros y (OK & F & t & n & F' & ev & S).
    unfold tstep in S. simpl in S. destruct (through_guard c).
    - destruct (take_guard f l) as [[h l']|]; [|discriminate].
      destruct (enter_guard h c) as [p|]; [|discriminate]. inversion S; subst.
      eapply call_acc; eauto.
    - destruct (enter c) as [p|]; [|discriminate]. inversion S; subst.
      eapply call_acc; eauto.
  Qed.

  Lemma all_build_end : forall N f, rank f < N -> build_ends f.
  Proof.
    induction N as [|N IH]; intros f L; [lia|].
    intros n st BD K. apply prog_acc; [exact K|].
    intros g H. apply IH. specialize (H _ BD). lia.
  Qed.

  Lemma thread_acc p : Acc lstep (mkthread (User p) [] []).
  Proof.
    apply prog_acc.
    - intros o. constructor. intros y (_ & F & t & n & F' & ev & S). discriminate S.
    - intros g _. apply (all_build_end (S (rank g))). lia.
  Qed.

  (** Many threads. *)
  Definition one_moves (l' l : list thread) : Prop :=
    exists n th th', nth_error l n = Some th /\ lstep th' th /\ l' = set_nth n l th'.

  Lemma list_acc l : Forall (Acc lstep) l -> Acc one_moves l.
  Proof.
    induction 1 as [|x l AX AL IH].
    - constructor. intros y (n & th & th' & N & _). destruct n; discriminate.
    - clear AL. revert l IH. induction AX as [x AX IHX]. intros l AL.
      induction AL as [l AL IHL].
      constructor. intros y (n & th & th' & N & L & ->). destruct n as [|n]; simpl in *.
      + inversion N; subst. apply IHX; [exact L|]. constructor. exact AL.
      + apply IHL. exists n, th, th'. auto.
  Qed.

  Definition gstep (s' s : sys) : Prop :=
    all_ok rank s /\ exists a ev, step builder s a = Some (s', ev).

  Lemma sys_acc s : Acc one_moves (threads s) -> Acc gstep s.
  Proof.
    intros A. remember (threads s) as l eqn:E. revert s E.
    induction A as [l A IH]. intros s ->. constructor. intros s' (OK & a & ev & S).
    destruct (step_inv _ _ _ _ _ S) as (th & th' & N & T & E).
    eapply IH; [|reflexivity]. exists (fst a), th, th'. split; [exact N|]. split; [|exact E].
    split.
    - unfold all_ok in OK. rewrite Forall_forall in OK. apply OK. eapply nth_error_In; eauto.
    - repeat eexists; eauto.
  Qed.

  Lemma start_acc v0 ps : Acc gstep (start v0 ps).
  Proof.
    apply sys_acc, list_acc. unfold start. simpl. rewrite Forall_forall. intros th I.
    apply in_map_iff in I. destruct I as (p & <- & _). apply thread_acc.
  Qed.

  Lemma run_app s l1 l2 :
    run builder s (l1 ++ l2) =
    match run builder s l1 with
    | Some (s1, e1) => match run builder s1 l2 with
                       | Some (s2, e2) => Some (s2, e1 ++ e2)
                       | None => None
                       end
    | None => None
    end.
  Proof.
    revert s. induction l1 as [|a l1 IH]; intros s; simpl.
    - destruct (run builder s l2) as [[s2 e2]|]; reflexivity.
    - destruct (step builder s a) as [[s1 e1]|]; [|reflexivity]. rewrite IH.
      destruct (run builder s1 l1) as [[s2 e2]|]; [|reflexivity].
      destruct (run builder s2 l2) as [[s3 e3]|]; [|reflexivity]. now rewrite app_assoc.
  Qed.

  Lemma no_endless_run s : all_ok rank s -> Acc gstep s ->
    forall a : nat -> tid * nat, exists n, run builder s (map a (seq 0 n)) = None.
  Proof.
    intros OK A. induction A as [s A IH]. intros a.
    destruct (step builder s (a 0)) as [[s1 e1]|] eqn:S.
    - destruct (IH s1) with (a := fun n => a (Datatypes.S n)) as (n & R).
      + split; [exact OK|eauto].
      + eapply step_ok; eauto.
      + exists (Datatypes.S n). simpl. rewrite S. rewrite <- seq_shift, map_map, R. reflexivity.
    - exists 1. simpl. now rewrite S.
  Qed.

  Lemma completes s : owned s -> all_ok rank s -> Acc gstep s ->
    exists l s' ev, run builder s l = Some (s', ev) /\
      Forall (fun th => finished th = true) (threads s').
  Proof.
    intros O OK A. induction A as [s A IH].
    destruct (never_stuck rank builder s O OK) as [(t & [s1 e1] & S)|F].
    - destruct (IH s1) as (l & s' & ev & R & F).
      + split; [exact OK|eauto].
      + eapply step_owned; eauto.
      + eapply step_ok; eauto.
      + exists ((t, 0) :: l), s', (e1 ++ ev). split; [|exact F]. cbn [run]. rewrite S, R. reflexivity.
    - exists [], s, []. auto.
  Qed.

  Lemma reach_acc s l s' ev : all_ok rank s -> Acc gstep s -> run builder s l = Some (s', ev) -> Acc gstep s'.
  Proof.
    revert s s' ev. induction l as [|a l IH]; simpl; intros s s' ev OK A R; [inversion R; subst; exact A|].
    destruct (step builder s a) as [[s1 e1]|] eqn:S; [|discriminate].
    destruct (run builder s1 l) as [[s2 e2]|] eqn:R2; [|discriminate]. inversion R; subst.
    eapply IH; [..|exact R2]; [eapply step_ok; eauto|]. apply A. split; [exact OK|eauto].
  Qed.
End Term.
