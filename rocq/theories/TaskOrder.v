(** Tasks and builders that keep to an order never get stuck (proof support for
    property C59). *)
From Coq Require Import List Bool Arith Lia.
From Verif Require Import ProxyTypes MultiSpec TaskSpec TaskModel TaskOwn.
Import ListNotations.

(** What a call at [p] can return, and with which guard. *)
Definition mode_op (m : rmode) : op nat :=
  match m with
  | MRead => ORead | MTryRead => OTryRead | MReadMut => OReadMut
  | MTryReadMut => OTryReadMut | MLazy => OLazyInit
  end.

Definition ret_of (p : pc) (h : hold) (r : res nat nat) : Prop :=
  match p with
  | Ret h0 r0 => h = h0 /\ r = r0
  | I_Acq m | I_Wait m | I_Check m | I_GetBld m | I_Build m | I_SetVal m _
  | I_SetFlag m | I_Done m | I_Fail m _ | I_Unwind m => h = gives (Proxy (mode_op m)) r
  | R_Map _ | LR_Acq | LR_Wait | LR_Map => h = gives LockRead r
  | M_Map _ | LW_Acq | LW_Wait | LW_Map => h = gives LockWrite r
  | W_Acq | W_Wait => h = gives (Proxy OWrite) r
  | C_Acq | C_Wait | C_Flag | C_Take | C_Rel _ | L_Load | K_Acq | K_Wait | K_Val | K_Flag _ | K_Rel _ _
  | D_Acq | D_Wait | D_Val | D_Rel _ | Q_Acq _ | Q_Wait _ | Q_Acq2 _ | Q_Wait2 _ | Q_Cmp _ | Q_Rel2 _ _
  | Q_Rel _ => h = HNone
  | G_Get h0 => h = h0
  | G_Set _ => h = HM
  | S_Flag _ | S_Rep _ | X_Flag | X_Take => h = HW
  | G_Drop _ => h = HNone
  end.

(** Program points of calls that take locks. *)
Definition locking (p : pc) : bool :=
  match p with
  | Ret _ _ | L_Load | G_Get _ | G_Set _ | S_Flag _ | S_Rep _ | X_Flag | X_Take | G_Drop _ => false
  | _ => true
  end.

Definition other_field (p : pc) : option fid :=
  match p with Q_Acq g | Q_Wait g | Q_Acq2 g | Q_Wait2 g => Some g | _ => None end.

(** The request of a call that waits. *)
Definition waits_for (f : fid) (p : pc) : option (fid * bool) :=
  match p with
  | I_Wait _ | W_Wait | C_Wait | LW_Wait => Some (f, true)
  | K_Wait | D_Wait | Q_Wait _ | LR_Wait => Some (f, false)
  | Q_Wait2 g => Some (g, false)
  | _ => None
  end.

Lemma request_pc F t f w yes no F' p' : request F t f w yes no = Some (F', p') -> p' = yes \/ p' = no.
Proof.
  unfold request. destruct (lq (F f)); [destruct (free (F f) w)|]; intros E; inversion E; auto.
Qed.

Lemma request_some F t f w yes no : exists r, request F t f w yes no = Some r.
Proof. unfold request. destruct (lq (F f)); [destruct (free (F f) w)|]; eexists; reflexivity. Qed.

Lemma served_pc F t f w yes F' p' : served F t f w yes = Some (F', p') -> p' = yes.
Proof.
  unfold served. destruct (lq (F f)) as [|[u b] q]; [discriminate|].
  destruct (Nat.eqb u t && free (F f) w); intros E; inversion E; auto.
Qed.

(** Where a step of a call can lead. *)
Ltac step_cases S :=
  simpl in S; unfold blocking_read in S;
  first
    [ discriminate S
    | apply request_pc in S; destruct S as [S|S]; subst
    | apply served_pc in S; subst
    | match type of S with (if ?b then _ else _) = _ => destruct b end;
      [inversion S; subst|apply request_pc in S; destruct S as [S|S]; subst]
    | cases_of S; try discriminate S; inversion S; subst ].

Lemma pstep_ret F t ins f p F' p' h r : pstep F t ins f p = Some (F', p') -> ret_of p' h r -> ret_of p h r.
Proof.
  intros S. destruct p; step_cases S; simpl; try (intros [-> ->]; reflexivity); auto; try (intros ->; reflexivity).
  all: intros [-> ->]; try (destruct m; reflexivity); auto.
Qed.

Lemma pstep_locking F t ins f p F' p' : pstep F t ins f p = Some (F', p') -> locking p' = true -> locking p = true.
Proof. intros S. destruct p; step_cases S; simpl; auto. Qed.

Lemma pstep_other F t ins f p F' p' g : pstep F t ins f p = Some (F', p') -> other_field p' = Some g -> other_field p = Some g.
Proof. intros S. destruct p; step_cases S; simpl; auto; discriminate. Qed.

Lemma await_ret p h : at_await p = Some h -> ret_of p HNone RCancelled.
Proof. destruct p; simpl; intros E; inversion E; try reflexivity; destruct m; reflexivity. Qed.

Section Ok.
  Variable inside : tid -> bool.
  Variable rank : fid -> nat.

  Definition bound (st : list frame) : option nat :=
    match st with [] => None | fr :: _ => Some (rank (fr_field fr)) end.

  Definition code_ok (b : option nat) (l : guards) (c : code) : Prop :=
    match c with
    | User p => orderly rank b l p
    | Call f _ p k =>
        (locking p = true -> lower rank b l f) /\
        (forall g, other_field p = Some g -> rank g < rank f) /\
        forall h r, ret_of p h r -> orderly rank b (keep f h l) (k r)
    | Leave _ (Some (_, _, k)) => orderly rank b l (k RCancelled)
    | Leave _ None => True
    end.

  Fixpoint frames_ok (st : list frame) : Prop :=
    match st with
    | [] => True
    | fr :: st' =>
        code_ok (bound st') (fr_held fr) (Call (fr_field fr) (fr_call fr) (I_Build (fr_mode fr)) (fr_cont fr)) /\
        frames_ok st'
    end.

  Definition task_ok (th : task) : Prop :=
    code_ok (bound (stack th)) (held th) (code_of th) /\ frames_ok (stack th).

  Lemma enter_ok b l f c k p :
    through_guard c = false -> enter c = Some p ->
    orderly rank b l (PCall f c k) -> code_ok b l (Call f c p k).
  Proof.
    intros T E O. destruct c as [[]| | |]; simpl in *; try discriminate;
      inversion E; subst; clear E T; destruct O as (O1 & O2 & O3);
      (split; [simpl; try discriminate; auto
              |split; [simpl; intros g' H; try discriminate; inversion H; subst; auto
                      |simpl; intros h r ->; apply O3]]).
  Qed.

  Lemma enter_guard_ok b l f c k :
    through_guard c = true -> orderly rank b l (PCall f c k) ->
    exists h l' p, take_guard f l = Some (h, l') /\ enter_guard h c = Some p /\
      code_ok b l' (Call f c p k).
  Proof.
    intros T O. destruct c as [[]| | |]; simpl in T; try discriminate;
      simpl in O; destruct O as (h & l' & G & K & O);
      exists h, l';
      destruct h; simpl in K; try discriminate; eexists; (split; [exact G|split; [reflexivity|]]);
      simpl; (split; [discriminate|split; [discriminate|intros h r ->; apply O]]).
  Qed.

  Lemma unwind_ok n st gs fr st' : unwind n st = Some (gs, fr, st') -> frames_ok st ->
    orderly rank (bound st') (fr_held fr) (fr_cont fr RCancelled) /\ frames_ok st'.
  Proof.
    revert st gs. induction n as [|n IH]; intros [|x st] gs E FO; simpl in E; try discriminate.
    - inversion E; subst. destruct FO as [(_ & _ & C3) FO]. split; [|exact FO].
      refine (C3 HNone RCancelled _). destruct (fr_mode fr); reflexivity.
    - destruct (unwind n st) as [[[gs1 fr1] st1]|] eqn:U; [|discriminate]. inversion E; subst.
      destruct FO as [_ FO]. eapply IH; eauto.
  Qed.

  Variable builder : fid -> nat -> prog.
  Hypothesis B : builders_orderly rank builder.

  Lemma tstep_ok F t n th F' th' ev :
    tstep inside builder F t n th = Some (F', th', ev) -> task_ok th -> task_ok th'.
  Proof.
    destruct th as [c l st]. unfold tstep, task_ok. simpl. intros S [CO FO].
    destruct c as [[o|f c k]|f c p k|gs next].
    - destruct l as [|[f h] rest].
      + destruct st as [|fr st]; [discriminate|]. inversion S; subst. simpl in *.
        destruct FO as [FO1 FO2]. split; [|exact FO2].
        destruct o; simpl; tauto.
      + inversion S; subst. simpl. auto.
    - destruct (through_guard c) eqn:TG.
      + destruct (enter_guard_ok _ _ _ _ _ TG CO) as (h & l' & p & E1 & E2 & CO').
        rewrite E1, E2 in S. inversion S; subst. simpl. auto.
      + destruct (enter c) as [p|] eqn:E; [|discriminate]. inversion S; subst.
        split; [|exact FO]. eapply enter_ok; eauto.
    - assert (P : forall F1 p1, pstep F t (inside t) f p = Some (F1, p1) ->
                  Some (F1, mktask (Call f c p1 k) l st, @nil tevent) = Some (F', th', ev) ->
                  code_ok (bound (stack th')) (held th') (code_of th') /\ frames_ok (stack th')).
      { intros F1 p1 E1 E2. inversion E2; subst. simpl. split; [|exact FO].
        destruct CO as (C1 & C2 & C3). split; [|split].
        - intros L. apply C1. eapply pstep_locking; eauto.
        - intros g G. apply C2. eapply pstep_other; eauto.
        - intros h r R. apply C3. eapply pstep_ret; eauto. }
      destruct p;
        try (destruct (pstep F t (inside t) f _) as [[F1 p1]|] eqn:E1 in S; [|discriminate S];
             eapply P; [exact E1|exact S]).
      + inversion S; subst. simpl in *. split; [|exact FO]. apply CO. auto.
      + inversion S; subst. simpl in *. split; [apply B|]. auto.
    - destruct gs as [|[f h] gs]; [destruct next as [[[f c] k]|]|]; inversion S; subst; simpl; auto.
  Qed.

  Lemma drop_call_ok F t th F' th' : drop_call F t th = Some (F', th') -> task_ok th -> task_ok th'.
  Proof.
    unfold drop_call. destruct th as [c l st]. simpl. intros S [CO FO].
    destruct c as [p|f c p k|gs next]; [discriminate| |discriminate]. simpl in S.
    destruct (at_await p) as [h|] eqn:E; [|discriminate]. inversion S; subst.
    split; [|exact FO]. simpl in *. destruct CO as (_ & _ & C3).
    exact (C3 HNone RCancelled (await_ret _ _ E)).
  Qed.

  Lemma drop_frame_ok F t th n F' th' : drop_frame F t th n = Some (F', th') -> task_ok th -> task_ok th'.
  Proof.
    unfold drop_frame. intros S [CO FO].
    destruct (innermost F t (code_of th)) as [[F1 gs]|]; [|discriminate].
    destruct (unwind n (stack th)) as [[[gs1 fr] st1]|] eqn:U; [|discriminate].
    inversion S; subst. exact (unwind_ok _ _ _ _ _ U FO).
  Qed.

  Lemma act_ok F t a th F' th' ev :
    act_step inside builder F t a th = Some (F', th', ev) -> task_ok th -> task_ok th'.
  Proof.
    destruct a as [n| |i|]; cbn [act_step]; intros S A.
    - eapply tstep_ok; eauto.
    - destruct (length (stack th)) as [|n].
      + destruct (drop_call F t th) as [[F1 th1]|] eqn:E; [|discriminate]. inversion S; subst.
        eapply drop_call_ok; eauto.
      + destruct (drop_frame F t th n) as [[F1 th1]|] eqn:E; [|discriminate]. inversion S; subst.
        eapply drop_frame_ok; eauto.
    - destruct i as [|i].
      + destruct (stack th); [discriminate|].
        destruct (drop_call F t th) as [[F1 th1]|] eqn:E; [|discriminate]. inversion S; subst.
        eapply drop_call_ok; eauto.
      + destruct (Datatypes.S i <? length (stack th)); [|discriminate].
        destruct (drop_frame F t th i) as [[F1 th1]|] eqn:E; [|discriminate]. inversion S; subst.
        eapply drop_frame_ok; eauto.
    - destruct (finished th); [discriminate|].
      destruct (innermost F t (code_of th)) as [[F1 gs]|] eqn:E; [|discriminate].
      inversion S; subst. split; simpl; auto.
  Qed.

  Definition all_ok (s : sys) : Prop := Forall task_ok (tasks s).

  Lemma step_ok s a s' ev : step inside builder s a = Some (s', ev) -> all_ok s -> all_ok s'.
  Proof.
    intros S A. destruct (step_inv _ _ _ _ _ _ S) as (th & th' & N & T & E).
    unfold all_ok. rewrite E. apply Forall_set; [exact A|].
    eapply act_ok; [exact T|]. unfold all_ok in A. rewrite Forall_forall in A.
    apply A. eapply nth_error_In; eauto.
  Qed.

  Lemma start_ok v0 ps : Forall (orderly rank None []) ps -> all_ok (start v0 ps).
  Proof.
    intros H. unfold all_ok, start. simpl. rewrite Forall_forall in *. intros th I.
    apply in_map_iff in I. destruct I as (p & <- & I). split; simpl; auto.
  Qed.

  Lemma reach_ok v0 ps l s ev : Forall (orderly rank None []) ps ->
    run inside builder (start v0 ps) l = Some (s, ev) -> all_ok s.
  Proof. intros H R. eapply (run_ind inside builder all_ok); eauto using step_ok, start_ok. Qed.

  (** Everything locked by the task below the current call is on higher fields. *)
  Lemma above_held b l f g kd :
    lower rank b l f -> In (g, kd) (own_held l) -> rank f < rank g.
  Proof.
    intros [_ L] I. induction l as [|[x h] l IH]; simpl in I; [tauto|].
    apply in_app_or in I. destruct I as [I|I].
    - assert (g = x) by (destruct h; simpl in I; intuition congruence). subst.
      apply (L x h). left. reflexivity.
    - apply IH; [|exact I]. intros g' h' I'. apply (L g' h'). right. exact I'.
  Qed.

  Lemma above_stack st f g kd :
    (forall n, bound st = Some n -> rank f < n) -> frames_ok st ->
    In (g, kd) (own_stack st) -> rank f < rank g.
  Proof.
    revert f. induction st as [|fr st IH]; simpl; intros f L FO I; [tauto|].
    destruct FO as [(C1 & _ & _) FO]. specialize (L _ eq_refl).
    specialize (C1 eq_refl).
    destruct I as [I|I]; [inversion I; subst; exact L|].
    apply in_app_or in I. destruct I as [I|I].
    - pose proof (above_held _ _ _ _ _ C1 I). lia.
    - assert (rank (fr_field fr) < rank g); [|lia]. apply IH; auto. apply C1.
  Qed.

  (** A task that waits for [x] owns only higher fields. *)
  Lemma above th f c p k x w g kd :
    task_ok th -> code_of th = Call f c p k -> waits_for f p = Some (x, w) -> kd <> KQ ->
    In (g, kd) (owns th) -> rank x < rank g.
  Proof.
    intros [CO FO] E W NQ I. unfold owns in I. rewrite E in *. destruct CO as (C1 & C2 & _).
    assert (L : locking p = true) by (destruct p; simpl in W; try discriminate; reflexivity).
    specialize (C1 L).
    assert (X : rank x <= rank f /\ (In (g, kd) (own_pc f p) -> rank x < rank g)).
    { destruct p; simpl in W; try discriminate; inversion W; subst; simpl;
        try (split; [lia|intros [J|[]]; inversion J; congruence]).
      specialize (C2 _ eq_refl). split; [lia|]. intros [J|[J|[]]]; inversion J; subst; [congruence|exact C2]. }
    destruct X as [X1 X2]. apply in_app_or in I. destruct I as [I|I]; [auto|].
    apply in_app_or in I. destruct I as [I|I].
    - pose proof (above_held _ _ _ _ _ C1 I). lia.
    - pose proof (above_stack (stack th) f g kd (proj1 C1) FO I). lia.
  Qed.

  (** A task either moves, is finished, or waits in a queue. *)
  Definition can_step (F : cells) (t : tid) (th : task) : Prop :=
    exists r, tstep inside builder F t 0 th = Some r.

  Definition waits (F : cells) (t : tid) (th : task) (x : fid) (w : bool) : Prop :=
    exists f c p k, code_of th = Call f c p k /\ waits_for f p = Some (x, w).

  Lemma move_or_wait F t th : task_ok th ->
    can_step F t th \/ finished th = true \/ exists x w, waits F t th x w.
  Proof.
    destruct th as [c l st]. unfold task_ok, can_step, tstep, finished, waits. simpl.
    intros [CO FO]. destruct c as [[o|f c k]|f c p k|gs next].
    - destruct l as [|[f h] rest]; [|left; eexists; reflexivity].
      destruct st as [|fr st]; [auto|left; eexists; reflexivity].
    - left. destruct (through_guard c) eqn:TG.
      + destruct (enter_guard_ok _ _ _ _ _ TG CO) as (h & l' & p & E1 & E2 & CO').
        rewrite E1, E2. eexists; reflexivity.
      + destruct c as [[]| | |]; simpl in *; try discriminate; eexists; reflexivity.
    - destruct (waits_for f p) as [[x w]|] eqn:W; [right; right; exists x, w, f, c, p, k; auto|].
      left. assert (RQ : forall g w yes no, exists r : cells * pc, request F t g w yes no = Some r)
        by (intros; apply request_some).
      destruct p; simpl in W; try discriminate; try (eexists; reflexivity); cbn [pstep]; unfold blocking_read;
        try (match goal with |- context [request ?a ?b ?d ?e ?y ?n] => destruct (RQ d e y n) as [[F1 p1] E]; rewrite E end);
        try (destruct (inside t)); try (destruct (value (F f))); try (destruct m); eexists; reflexivity.
    - left. destruct gs as [|[f h] gs]; [destruct next as [[[f c] k]|]|]; eexists; reflexivity.
  Qed.

  (** The first of a queue moves when the lock is free. *)
  Lemma first_moves F t th x w : waits F t th x w ->
    (exists b q, lq (F x) = (t, b) :: q) -> free (F x) w = true -> can_step F t th.
  Proof.
    intros (f & c & p & k & E & W) (b & q & EQ) FR. unfold can_step, tstep. rewrite E.
    assert (SV : forall yes, exists r, served F t x w yes = Some r).
    { intros yes. unfold served. rewrite EQ, Nat.eqb_refl, FR. eexists; reflexivity. }
    destruct p; simpl in W; try discriminate; inversion W; subst; cbn [pstep];
      match goal with |- context [served ?a ?b0 ?d ?e ?y] => destruct (SV y) as [[F1 p1] ES]; rewrite ES end;
      eexists; reflexivity.
  Qed.

  Lemma waiter_queued th f c p k x : code_of th = Call f c p k ->
    (exists w, waits_for f p = Some (x, w)) <-> In (x, KQ) (owns th).
  Proof.
    intros E. unfold owns. rewrite E. simpl. split.
    - intros (w & W). apply in_or_app. left.
      destruct p; simpl in W; try discriminate; inversion W; subst; left; reflexivity.
    - intros I. apply cnt_in in I. rewrite cnt_app, no_q in I.
      assert (J : In (x, KQ) (own_pc f p)) by (apply cnt_in; lia).
      destruct p; simpl in J; try (destruct h; simpl in J); intuition; try discriminate;
        match goal with H : (_, _) = (_, _) |- _ => inversion H; subst end; eexists; reflexivity.
  Qed.

  Lemma queued_in t l : (exists w, In (t, w) l) <-> queued t l > 0.
  Proof.
    unfold queued. rewrite <- times_in, in_map_iff. split.
    - intros (w & I). exists (t, w). auto.
    - intros ([u w] & E & I). simpl in E. subst. eauto.
  Qed.

  Lemma owner_task s t f kd : owned s ->
    (kd = KW /\ lw (fields s f) = Some t \/ kd = KR /\ In t (lr (fields s f)) \/
     kd = KQ /\ exists w, In (t, w) (lq (fields s f))) ->
    exists th, nth_error (tasks s) t = Some th /\ In (f, kd) (owns th).
  Proof.
    intros A H. specialize (A t f). unfold owns_at in A.
    assert (G : cnt kd f (match nth_error (tasks s) t with Some th => owns th | None => [] end) > 0).
    { destruct A as (A1 & A2 & A3). destruct H as [(-> & E)|[(-> & E)|(-> & E)]].
      - rewrite A1, E, at_most_self. lia.
      - rewrite A2. now apply times_in.
      - rewrite A3. now apply queued_in. }
    destruct (nth_error (tasks s) t) as [th|]; [|simpl in G; lia].
    exists th. split; [reflexivity|]. now apply cnt_in.
  Qed.

  Definition someone_moves (s : sys) : Prop :=
    exists t th, nth_error (tasks s) t = Some th /\ can_step (fields s) t th.

  Lemma not_free c w : free c w = false -> exists u, lw c = Some u \/ In u (lr c).
  Proof.
    unfold free. destruct (lw c) as [u|]; [eauto|]. destruct w; [|discriminate].
    destruct (lr c) as [|u r]; [discriminate|]. intros _. exists u. right. left. reflexivity.
  Qed.

  Lemma waiting_moves s : owned s -> all_ok s ->
    forall n x w t th, nth_error (tasks s) t = Some th -> waits (fields s) t th x w ->
      rank x <= n -> someone_moves s.
  Proof.
    intros O A. induction n as [n IH] using (well_founded_induction lt_wf).
    intros x w t th N W L.
    assert (OKof : forall u th', nth_error (tasks s) u = Some th' -> task_ok th').
    { intros u th' Nu. unfold all_ok in A. rewrite Forall_forall in A. apply A. eapply nth_error_In; eauto. }
    (* the first of the queue *)
    assert (H : exists u b q thu wu, lq (fields s x) = (u, b) :: q /\ nth_error (tasks s) u = Some thu /\
                waits (fields s) u thu x wu).
    { destruct W as (f & c & p & k & E & W).
      assert (I : In (x, KQ) (owns th)) by (apply (waiter_queued _ _ _ _ _ _ E); eauto).
      pose proof (O t x) as (_ & _ & Q). unfold owns_at in Q. rewrite N in Q.
      apply cnt_in in I. destruct (lq (fields s x)) as [|[u b] q] eqn:EQ; [unfold queued in Q; simpl in Q; lia|].
      destruct (owner_task s u x KQ O) as (thu & Nu & Iu).
      { right. right. split; [reflexivity|]. rewrite EQ. exists b. left. reflexivity. }
      assert (C : exists f' c' p' k', code_of thu = Call f' c' p' k').
      { apply cnt_in in Iu. unfold owns in Iu. rewrite cnt_app, no_q in Iu.
        destruct (code_of thu) as [p'|f' c' p' k'|gs next]; simpl in Iu; [lia|eauto|].
        rewrite held_no_q in Iu. lia. }
      destruct C as (f' & c' & p' & k' & E').
      destruct (proj2 (waiter_queued _ _ _ _ _ x E') Iu) as (wu & W').
      exists u, b, q, thu, wu. repeat split; auto. exists f', c', p', k'. auto. }
    destruct H as (u & b & q & thu & wu & EQ & Nu & Wu).
    destruct (free (fields s x) wu) eqn:FR.
    { exists u, thu. split; [exact Nu|]. eapply first_moves; eauto. }
    (* who is in the way *)
    destruct (not_free _ _ FR) as (v & OV).
    assert (H : exists kd thv, kd <> KQ /\ nth_error (tasks s) v = Some thv /\ In (x, kd) (owns thv)).
    { destruct OV as [E|E].
      - destruct (owner_task s v x KW O) as (thv & Nv & Iv); [auto|]. exists KW, thv. repeat split; auto. discriminate.
      - destruct (owner_task s v x KR O) as (thv & Nv & Iv); [auto|]. exists KR, thv. repeat split; auto. discriminate. }
    destruct H as (kd & thv & NK & Nv & Iv).
    destruct (move_or_wait (fields s) v thv (OKof _ _ Nv)) as [M|[FI|(x' & w' & W')]].
    - exists v, thv. auto.
    - rewrite (finished_owns _ FI) in Iv. destruct Iv.
    - pose proof W' as (f' & c' & p' & k' & E' & P').
      pose proof (above _ _ _ _ _ _ _ _ _ (OKof _ _ Nv) E' P' NK Iv).
      eapply (IH (rank x')); eauto. lia.
  Qed.

  Lemma never_stuck s : owned s -> all_ok s ->
    (exists t r, step inside builder s (t, Go 0) = Some r) \/ Forall (fun th => finished th = true) (tasks s).
  Proof.
    intros O A.
    assert (D : someone_moves s \/ Forall (fun th => finished th = true) (tasks s)).
    { assert (H : forall t th, nth_error (tasks s) t = Some th -> someone_moves s \/ finished th = true).
      { intros t th N. assert (OK : task_ok th).
        { unfold all_ok in A. rewrite Forall_forall in A. apply A. eapply nth_error_In; eauto. }
        destruct (move_or_wait (fields s) t th OK) as [M|[FI|(f & p & W)]]; auto.
        - left. exists t, th. auto.
        - left. eapply waiting_moves; eauto. }
      assert (G : forall l, (forall th, In th l -> someone_moves s \/ finished th = true) ->
                  someone_moves s \/ Forall (fun th => finished th = true) l).
      { induction l as [|th l IH]; intros HI; [right; constructor|].
        destruct (HI th (or_introl eq_refl)) as [M|E]; [auto|].
        destruct IH as [M|FA]; [intros; apply HI; right; assumption|auto|].
        right. constructor; auto. }
      apply G. intros th I. destruct (In_nth_error _ _ I) as [t N]. eauto. }
    destruct D as [(t & th & N & ([[F1 th1] ev1] & S))|FA]; [|auto].
    left. exists t. unfold step. simpl. rewrite N, S. eexists; reflexivity.
  Qed.
End Ok.
