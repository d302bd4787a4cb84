(** Tasks and builders that keep to an order finish, whatever is dropped or aborted on
    the way (proof support for property C59). *)
From Coq Require Import List Bool Arith Lia.
From Verif Require Import ProxyTypes MultiSpec TaskSpec TaskModel TaskOwn TaskOrder.
Import ListNotations.

(** How far a call is from its end. *)
Definition left_of (p : pc) : nat :=
  match p with
  | Ret _ _ => 0
  | I_Acq _ => 20 | I_Wait _ => 19 | I_Check _ => 18 | I_GetBld _ => 17
  | I_Build _ => 15 | I_SetVal _ _ => 14 | I_SetFlag _ => 13 | I_Done _ => 11
  | I_Fail _ _ => 11 | I_Unwind _ => 11
  | R_Map _ => 5 | M_Map _ => 8
  | W_Acq => 2 | W_Wait => 1
  | C_Acq => 5 | C_Wait => 4 | C_Flag => 3 | C_Take => 2 | C_Rel _ => 1
  | L_Load => 1
  | K_Acq => 5 | K_Wait => 4 | K_Val => 3 | K_Flag _ => 2 | K_Rel _ _ => 1
  | D_Acq => 4 | D_Wait => 3 | D_Val => 2 | D_Rel _ => 1
  | Q_Acq _ => 7 | Q_Wait _ => 6 | Q_Acq2 _ => 5 | Q_Wait2 _ => 4 | Q_Cmp _ => 3 | Q_Rel2 _ _ => 2
  | Q_Rel _ => 1
  | LR_Acq => 7 | LR_Wait => 6 | LR_Map => 5 | LW_Acq => 10 | LW_Wait => 9 | LW_Map => 8
  | G_Get _ => 1 | G_Set _ => 1 | S_Flag _ => 2 | S_Rep _ => 1 | X_Flag => 2 | X_Take => 1
  | G_Drop _ => 1
  end.

Lemma pstep_left F t ins f p F' p' : pstep F t ins f p = Some (F', p') -> left_of p' < left_of p.
Proof. intros S. destruct p; step_cases S; simpl; lia. Qed.

Lemma after_build_left m o : left_of (after_build m o) < left_of (I_Build m).
Proof. destruct o; simpl; lia. Qed.

Section Term.
  Variable inside : tid -> bool.
  Variable rank : fid -> nat.
  Variable builder : fid -> nat -> prog.
  Hypothesis B : builders_orderly rank builder.

  Definition lstep (th' th : task) : Prop :=
    task_ok rank th /\ exists F t a F' ev, act_step inside builder F t a th = Some (F', th', ev).

  (** The continuation [k] ends, whatever it gets and holds. *)
  Definition goes_on (k : res nat nat -> prog) (st : list frame) : Prop :=
    forall r l, Acc lstep (mktask (User (k r)) l st).

  (** Dropping a call that waits on the stack ends well. *)
  Definition drops_end (st : list frame) : Prop :=
    forall n gs fr st', unwind n st = Some (gs, fr, st') -> goes_on (fr_cont fr) st'.

  (** Nothing is left. *)
  Lemma gone_acc o : Acc lstep (mktask (User (PEnd o)) [] []).
  Proof.
    constructor. intros y (_ & F & t & a & F' & ev & S).
    destruct a as [n| |[|i]|]; simpl in S; discriminate S.
  Qed.

  Lemma leave_inv F t a gs nx l st F' th' ev :
    act_step inside builder F t a (mktask (Leave gs nx) l st) = Some (F', th', ev) ->
    exists n, tstep inside builder F t n (mktask (Leave gs nx) l st) = Some (F', th', ev).
  Proof.
    destruct a as [n| |[|i]|]; simpl; intros S.
    - eauto.
    - destruct (length st); unfold drop_call, drop_frame in S; simpl in S; discriminate.
    - destruct st; unfold drop_call in S; simpl in S; discriminate.
    - destruct (_ <? _); unfold drop_frame in S; simpl in S; discriminate.
    - discriminate.
  Qed.

  Lemma leave_gone gs : Acc lstep (mktask (Leave gs None) [] []).
  Proof.
    induction gs as [|[f h] gs IH]; constructor; intros y (_ & F & t & a & F' & ev & S);
      apply leave_inv in S; destruct S as (n & S); unfold tstep in S; simpl in S; inversion S; subst.
    - apply gone_acc.
    - exact IH.
  Qed.

  Lemma leave_on gs f c k l st : goes_on k st -> Acc lstep (mktask (Leave gs (Some (f, c, k))) l st).
  Proof.
    intros K. induction gs as [|[g h] gs IH]; constructor; intros y (_ & F & t & a & F' & ev & S);
      apply leave_inv in S; destruct S as (n & S); unfold tstep in S; simpl in S; inversion S; subst.
    - apply K.
    - exact IH.
  Qed.

  (** Drops and aborts end well; what is left is to look at the task's own steps. *)
  Lemma acts_acc c l st :
    drops_end st ->
    (forall f c0 p k, c = Call f c0 p k -> goes_on k st) ->
    (forall F t n F' th' ev, task_ok rank (mktask c l st) ->
       tstep inside builder F t n (mktask c l st) = Some (F', th', ev) -> Acc lstep th') ->
    Acc lstep (mktask c l st).
  Proof.
    intros D K G. constructor. intros y (OK & F & t & a & F' & ev & S).
    assert (DF : forall n F1 th1, drop_frame F t (mktask c l st) n = Some (F1, th1) -> Acc lstep th1).
    { intros n F1 th1 E. unfold drop_frame in E. simpl in E.
      destruct (innermost F t c) as [[F2 gs]|]; [|discriminate].
      destruct (unwind n st) as [[[gs1 fr] st1]|] eqn:U; [|discriminate]. inversion E; subst.
      apply leave_on. eapply D; eauto. }
    assert (DC : forall F1 th1, drop_call F t (mktask c l st) = Some (F1, th1) -> Acc lstep th1).
    { intros F1 th1 E. unfold drop_call in E. simpl in E.
      destruct c as [p|f c0 p k|gs nx]; [discriminate| |discriminate].
      destruct (innermost F t (Call f c0 p k)) as [[F2 gs]|]; [|discriminate]. inversion E; subst.
      apply leave_on. eapply K; eauto. }
    destruct a as [n| |i|]; cbn [act_step] in S.
    - eapply G; eauto.
    - destruct (length (stack (mktask c l st))) as [|n].
      + destruct (drop_call F t (mktask c l st)) as [[F1 th1]|] eqn:E; [|discriminate]. inversion S; subst.
        eapply DC; eauto.
      + destruct (drop_frame F t (mktask c l st) n) as [[F1 th1]|] eqn:E; [|discriminate]. inversion S; subst.
        eapply DF; eauto.
    - destruct i as [|i].
      + destruct (stack (mktask c l st)); [discriminate|].
        destruct (drop_call F t (mktask c l st)) as [[F1 th1]|] eqn:E; [|discriminate]. inversion S; subst.
        eapply DC; eauto.
      + destruct (Datatypes.S i <? length (stack (mktask c l st))); [|discriminate].
        destruct (drop_frame F t (mktask c l st) i) as [[F1 th1]|] eqn:E; [|discriminate]. inversion S; subst.
        eapply DF; eauto.
    - destruct (finished (mktask c l st)); [discriminate|].
      destruct (innermost F t (code_of (mktask c l st))) as [[F1 gs]|] eqn:E; [|discriminate].
      inversion S; subst. apply leave_gone.
  Qed.

  (** Whatever waits on the stack will be done once the current code ends. *)
  Definition rest_ends (st : list frame) : Prop :=
    drops_end st /\ forall o, Acc lstep (mktask (User (PEnd o)) [] st).

  Lemma end_acc st l o : rest_ends st -> Acc lstep (mktask (User (PEnd o)) l st).
  Proof.
    intros [D K]. induction l as [|[f h] l IH]; [apply K|].
    apply acts_acc; [exact D|discriminate|].
    intros F t n F' th' ev _ S. unfold tstep in S. simpl in S. inversion S; subst. exact IH.
  Qed.

  Definition build_ends (f : fid) : Prop :=
    forall n st, bound rank st = Some (rank f) -> rest_ends st ->
      Acc lstep (mktask (User (builder f n)) [] st).

  Lemma call_acc st f c k :
    drops_end st -> goes_on k st ->
    (forall g, (forall n, bound rank st = Some n -> rank g < n) -> build_ends g) ->
    forall N p l, left_of p <= N -> Acc lstep (mktask (Call f c p k) l st).
  Proof.
    intros HD HK HB. induction N as [N IH] using (well_founded_induction lt_wf).
    intros p l LE. apply acts_acc; [exact HD|intros f0 c0 p0 k0 E; inversion E; subst; exact HK|].
    intros F t n F' y ev OK S.
    unfold tstep in S. simpl in S.
    assert (P : forall F1 p1, pstep F t (inside t) f p = Some (F1, p1) ->
                Some (F1, mktask (Call f c p1 k) l st, @nil tevent) = Some (F', y, ev) -> Acc lstep y).
    { intros F1 p1 E1 E2. inversion E2; subst. apply pstep_left in E1.
      eapply (IH (left_of p1)); lia. }
    destruct p;
      try (destruct (pstep F t (inside t) f _) as [[F1 p1]|] eqn:E1 in S; [|discriminate S];
           eapply P; [exact E1|exact S]).
    - inversion S; subst. apply HK.
    - inversion S; subst. destruct OK as [(C1 & _ & _) _]. specialize (C1 eq_refl). simpl in C1.
      assert (D : drops_end (mkframe f c m k l :: st)).
      { intros [|n0] gs fr st' U; simpl in U.
        - inversion U; subst. exact HK.
        - destruct (unwind n0 st) as [[[gs1 fr1] st1]|] eqn:U1; [|discriminate]. inversion U; subst.
          eapply HD; eauto. }
      apply HB; [apply C1|reflexivity|]. split; [exact D|].
      intros o. apply acts_acc; [exact D|discriminate|].
      intros F1 t1 n1 F2 y ev _ S1.
      unfold tstep in S1. simpl in S1. inversion S1; subst.
      pose proof (after_build_left m o). eapply (IH (left_of (after_build m o))); lia.
  Qed.

  Lemma prog_acc st :
    rest_ends st ->
    (forall g, (forall n, bound rank st = Some n -> rank g < n) -> build_ends g) ->
    forall p l, Acc lstep (mktask (User p) l st).
  Proof.
    intros K HB. induction p as [o|f c k IH]; intros l; [apply end_acc; exact K|].
    destruct K as [D K].
    apply acts_acc; [exact D|discriminate|]. intros F t n F' y ev _ S.
    unfold tstep in S. simpl in S. destruct (through_guard c).
    - destruct (take_guard f l) as [[h l']|]; [|discriminate].
      destruct (enter_guard h c) as [p|]; [|discriminate]. inversion S; subst.
      eapply call_acc; eauto.
    - destruct (enter c) as [p|]; [|discriminate]. inversion S; subst.
      eapply call_acc; eauto.
  Qed.

  Lemma all_build_end : forall N f, rank f < N -> build_ends f.
  Proof.
    induction N as [|N IH]; intros f L; [lia|].
    intros n st BD K. apply prog_acc; [exact K|].
    intros g H. apply IH. specialize (H _ BD). lia.
  Qed.

  Lemma task_acc p : Acc lstep (mktask (User p) [] []).
  Proof.
    apply prog_acc.
    - split; [intros [|n] gs fr st' U; discriminate U|apply gone_acc].
    - intros g _. apply (all_build_end (S (rank g))). lia.
  Qed.

  (** Many tasks. *)
  Definition one_moves (l' l : list task) : Prop :=
    exists n th th', nth_error l n = Some th /\ lstep th' th /\ l' = set_nth n l th'.

  Lemma list_acc l : Forall (Acc lstep) l -> Acc one_moves l.
  Proof.
    induction 1 as [|x l AX AL IH].
    - constructor. intros y (n & th & th' & N & _). destruct n; discriminate.
    - clear AL. revert l IH. induction AX as [x AX IHX]. intros l AL.
      induction AL as [l AL IHL].
      constructor. intros y (n & th & th' & N & L & ->). destruct n as [|n]; simpl in *.
      + inversion N; subst. apply IHX; [exact L|]. constructor. exact AL.
      + apply IHL. exists n, th, th'. auto.
  Qed.

  Definition gstep (s' s : sys) : Prop :=
    all_ok rank s /\ exists a ev, step inside builder s a = Some (s', ev).

  Lemma sys_acc s : Acc one_moves (tasks s) -> Acc gstep s.
  Proof.
    intros A. remember (tasks s) as l eqn:E. revert s E.
    induction A as [l A IH]. intros s ->. constructor. intros s' (OK & a & ev & S).
    destruct (step_inv _ _ _ _ _ _ S) as (th & th' & N & T & E).
    eapply IH; [|reflexivity]. exists (fst a), th, th'. split; [exact N|]. split; [|exact E].
    split.
    - unfold all_ok in OK. rewrite Forall_forall in OK. apply OK. eapply nth_error_In; eauto.
    - repeat eexists; eauto.
  Qed.

  Lemma start_acc v0 ps : Acc gstep (start v0 ps).
  Proof.
    apply sys_acc, list_acc. unfold start. simpl. rewrite Forall_forall. intros th I.
    apply in_map_iff in I. destruct I as (p & <- & _). apply task_acc.
  Qed.

  Lemma no_endless_run s : all_ok rank s -> Acc gstep s ->
    forall a : nat -> tid * act, exists n, run inside builder s (map a (seq 0 n)) = None.
  Proof.
    intros OK A. induction A as [s A IH]. intros a.
    destruct (step inside builder s (a 0)) as [[s1 e1]|] eqn:S.
    - destruct (IH s1) with (a := fun n => a (Datatypes.S n)) as (n & R).
      + split; [exact OK|eauto].
      + eapply step_ok; eauto.
      + exists (Datatypes.S n). simpl. rewrite S. rewrite <- seq_shift, map_map, R. reflexivity.
    - exists 1. simpl. now rewrite S.
  Qed.

  Lemma completes s : owned s -> all_ok rank s -> Acc gstep s ->
    exists l s' ev, run inside builder s l = Some (s', ev) /\
      Forall undisturbed l /\ Forall (fun th => finished th = true) (tasks s').
  Proof.
    intros O OK A. induction A as [s A IH].
    destruct (never_stuck inside rank builder s O OK) as [(t & [s1 e1] & S)|F].
    - destruct (IH s1) as (l & s' & ev & R & U & F).
      + split; [exact OK|eauto].
      + eapply step_owned; eauto.
      + eapply step_ok; eauto.
      + exists ((t, Go 0) :: l), s', (e1 ++ ev). split; [|split; [|exact F]].
        * cbn [run]. rewrite S, R. reflexivity.
        * constructor; [exact I|exact U].
    - exists [], s, []. repeat split; auto.
  Qed.

  Lemma reach_acc s l s' ev : all_ok rank s -> Acc gstep s ->
    run inside builder s l = Some (s', ev) -> Acc gstep s'.
  Proof.
    revert s s' ev. induction l as [|a l IH]; simpl; intros s s' ev OK A R; [inversion R; subst; exact A|].
    destruct (step inside builder s a) as [[s1 e1]|] eqn:S; [|discriminate].
    destruct (run inside builder s1 l) as [[s2 e2]|] eqn:R2; [|discriminate]. inversion R; subst.
    eapply IH; [..|exact R2]; [eapply step_ok; eauto|]. apply A. split; [exact OK|eauto].
  Qed.
End Term.
