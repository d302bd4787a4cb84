(** Threads and builders that keep to an order never get stuck (proof support for
    property C09). *)
From Coq Require Import List Bool Arith Lia.
From Verif Require Import ProxyTypes MultiSpec MultiModel MultiOwn.
Import ListNotations.

(** What a call at [p] can return, and with which guard. *)
Definition mode_op (m : rmode) : op nat :=
  match m with
  | MRead => ORead | MTryRead => OTryRead | MReadMut => OReadMut
  | MTryReadMut => OTryReadMut | MLazy => OLazyInit
  end.

Definition ret_of (p : pc) (h : hold) (r : res nat nat) : Prop :=
  match p with
  | Ret h0 r0 => h = h0 /\ r = r0
  | I_Acq m | I_Check m | I_Upg m | I_Drain m | I_Recheck m | I_Build m | I_SetVal m _
  | I_SetFlag m | I_Down m | I_Done m | I_Fail m _ | I_Unwind m => h = gives (Proxy (mode_op m)) r
  | R_Map _ | LR_Acq | LR_Map => h = gives LockRead r
  | M_Upg _ | M_Drain _ | M_Map _ | LW_Acq | LW_Drain | LW_Map => h = gives LockWrite r
  | W_Acq | W_Drain => h = gives (Proxy OWrite) r
  | C_Acq | C_Drain | C_Flag | C_Take | C_Rel _ | L_Load | K_Acq | K_Val | K_Flag _ | K_Rel _ _
  | D_Acq | D_Val | D_Rel _ | Q_Acq _ | Q_Acq2 _ | Q_Cmp _ | Q_Rel2 _ _ | Q_Rel _ => h = HNone
  | G_Get h0 => h = h0
  | G_Set _ => h = HM
  | S_Flag _ | S_Rep _ | X_Flag | X_Take => h = HW
  | G_Drop _ => h = HNone
  end.

(** Program points of calls that take locks. *)
Definition locking (p : pc) : bool :=
  match p with
  | Ret _ _ | L_Load | G_Get _ | G_Set _ | S_Flag _ | S_Rep _ | X_Flag | X_Take | G_Drop _ => false
  | _ => true
  end.

Definition other_field (p : pc) : option fid :=
  match p with Q_Acq g | Q_Acq2 g => Some g | _ => None end.

Ltac cases_of S :=
  repeat match type of S with
  | context [match ?x with _ => _ end] =>
      match x with
      | value _ => destruct x eqn:?
      | lw _ => destruct x eqn:?
      | lu _ => destruct x eqn:?
      | lr _ => destruct x eqn:?
      | _ => is_var x; destruct x
      end
  end.

Lemma pstep_ret F t f p F' p' h r : pstep F t f p = Some (F', p') -> ret_of p' h r -> ret_of p h r.
Proof.
  intros S. destruct p; simpl in S; try discriminate S; cases_of S; try discriminate S;
    inversion S; subst; simpl; try (intros [-> ->]; reflexivity); auto; try (intros ->; reflexivity).
  all: intros [-> ->]; try (destruct m; reflexivity); auto.
Qed.

Lemma pstep_locking F t f p F' p' : pstep F t f p = Some (F', p') -> locking p' = true -> locking p = true.
Proof.
  intros S. destruct p; simpl in S; try discriminate S; cases_of S; try discriminate S;
    inversion S; subst; simpl; auto.
Qed.

Lemma pstep_other F t f p F' p' g : pstep F t f p = Some (F', p') -> other_field p' = Some g -> other_field p = Some g.
Proof.
  intros S. destruct p; simpl in S; try discriminate S; cases_of S; try discriminate S;
    inversion S; subst; simpl; auto; discriminate.
Qed.

Section Ok.
  Variable rank : fid -> nat.

  Definition bound (st : list frame) : option nat :=
    match st with [] => None | fr :: _ => Some (rank (fr_field fr)) end.

  Definition code_ok (b : option nat) (l : guards) (c : code) : Prop :=
    match c with
    | User p => orderly rank b l p
    | Call f p k =>
        (locking p = true -> lower rank b l f) /\
        (forall g, other_field p = Some g -> rank g < rank f) /\
        forall h r, ret_of p h r -> orderly rank b (keep f h l) (k r)
    end.

  Fixpoint frames_ok (st : list frame) : Prop :=
    match st with
    | [] => True
    | fr :: st' =>
        code_ok (bound st') (fr_held fr) (Call (fr_field fr) (I_Build (fr_mode fr)) (fr_cont fr)) /\
        frames_ok st'
    end.

  Definition thread_ok (th : thread) : Prop :=
    code_ok (bound (stack th)) (held th) (code_of th) /\ frames_ok (stack th).

  Lemma enter_ok b l f c k p :
    through_guard c = false -> enter c = Some p ->
    orderly rank b l (PCall f c k) -> code_ok b l (Call f p k).
  Proof.
    intros T E O. destruct c as [[]| | |]; simpl in *; try discriminate;
      inversion E; subst; clear E T; destruct O as (O1 & O2 & O3);
      (split; [simpl; try discriminate; auto
              |split; [simpl; intros g' H; try discriminate; inversion H; subst; auto
                      |simpl; intros h r ->; apply O3]]).
  Qed.

  Lemma enter_guard_ok b l f c k :
    through_guard c = true -> orderly rank b l (PCall f c k) ->
    exists h l' p, take_guard f l = Some (h, l') /\ enter_guard h c = Some p /\
      code_ok b l' (Call f p k).
  Proof.
    intros T O. destruct c as [[]| | |]; simpl in T; try discriminate;
      simpl in O; destruct O as (h & l' & G & K & O);
      exists h, l';
      destruct h; simpl in K; try discriminate; eexists; (split; [exact G|split; [reflexivity|]]);
      simpl; (split; [discriminate|split; [discriminate|intros h r ->; apply O]]).
  Qed.

  Lemma after_build_ok b l f m o k :
    code_ok b l (Call f (I_Build m) k) -> code_ok b l (Call f (after_build m o) k).
  Proof. destruct o; simpl; tauto. Qed.

  Variable builder : fid -> nat -> prog.
  Hypothesis B : builders_orderly rank builder.

  Lemma tstep_ok F t n th F' th' ev :
    tstep builder F t n th = Some (F', th', ev) -> thread_ok th -> thread_ok th'.
  Proof.
    destruct th as [c l st]. unfold tstep, thread_ok. simpl. intros S [CO FO].
    destruct c as [[o|f c k]|f p k].
    - destruct l as [|[f h] rest].
      + destruct st as [|fr st]; [discriminate|]. inversion S; subst. simpl in *.
        destruct FO as [FO1 FO2]. split; [|exact FO2].
        destruct o; simpl; tauto.
      + inversion S; subst. simpl. auto.
    - destruct (through_guard c) eqn:TG.
      + destruct (enter_guard_ok _ _ _ _ _ TG CO) as (h & l' & p & E1 & E2 & CO').
        rewrite E1, E2 in S. inversion S; subst. simpl. auto.
      + destruct (enter c) as [p|] eqn:E; [|discriminate]. inversion S; subst.
        split; [|exact FO]. eapply enter_ok; eauto.
    - assert (P : forall F1 p1, pstep F t f p = Some (F1, p1) ->
                  Some (F1, mkthread (Call f p1 k) l st, @nil bevent) = Some (F', th', ev) ->
                  code_ok (bound (stack th')) (held th') (code_of th') /\ frames_ok (stack th')).
      { intros F1 p1 E1 E2. inversion E2; subst. simpl. split; [|exact FO].
        destruct CO as (C1 & C2 & C3). split; [|split].
        - intros L. apply C1. eapply pstep_locking; eauto.
        - intros g G. apply C2. eapply pstep_other; eauto.
        - intros h r R. apply C3. eapply pstep_ret; eauto. }
      destruct p;
        try (destruct (pstep F t f _) as [[F1 p1]|] eqn:E1 in S; [|discriminate S];
             eapply P; [exact E1|exact S]).
      + inversion S; subst. simpl in *. split; [|exact FO]. apply CO. auto.
      + inversion S; subst. simpl in *. split; [apply B|]. auto.
  Qed.

  Definition all_ok (s : sys) : Prop := Forall thread_ok (threads s).

  Lemma Forall_set {A} (P : A -> Prop) n l x : Forall P l -> P x -> Forall P (set_nth n l x).
  Proof.
    intros H PX. revert n. induction H; destruct n; simpl; constructor; auto.
  Qed.

  Lemma step_ok s a s' ev : step builder s a = Some (s', ev) -> all_ok s -> all_ok s'.
  Proof.
    intros S A. destruct (step_inv _ _ _ _ _ S) as (th & th' & N & T & E).
    unfold all_ok. rewrite E. apply Forall_set; [exact A|].
    eapply tstep_ok; [exact T|]. unfold all_ok in A. rewrite Forall_forall in A.
    apply A. eapply nth_error_In; eauto.
  Qed.

  Lemma start_ok v0 ps : Forall (orderly rank None []) ps -> all_ok (start v0 ps).
  Proof.
    intros H. unfold all_ok, start. simpl. rewrite Forall_forall in *. intros th I.
    apply in_map_iff in I. destruct I as (p & <- & I). split; simpl; auto.
  Qed.

  Lemma reach_ok v0 ps l s ev : Forall (orderly rank None []) ps ->
    run builder (start v0 ps) l = Some (s, ev) -> all_ok s.
  Proof. intros H R. eapply (run_ind builder all_ok); eauto using step_ok, start_ok. Qed.

  (** Everything locked by the thread below the current call is on higher fields. *)
  Lemma above_held b l f g kd :
    lower rank b l f -> In (g, kd) (own_held l) -> rank f < rank g.
  Proof.
    intros [_ L] I. induction l as [|[x h] l IH]; simpl in I; [tauto|].
    apply in_app_or in I. destruct I as [I|I].
    - assert (g = x) by (destruct h; simpl in I; intuition congruence). subst.
      apply (L x h). left. reflexivity.
    - apply IH; [|exact I]. intros g' h' I'. apply (L g' h'). right. exact I'.
  Qed.

  Lemma above_stack st f g kd :
    (forall n, bound st = Some n -> rank f < n) -> frames_ok st ->
    In (g, kd) (own_stack st) -> rank f < rank g.
  Proof.
    revert f. induction st as [|fr st IH]; simpl; intros f L FO I; [tauto|].
    destruct FO as [(C1 & _ & _) FO]. specialize (L _ eq_refl).
    specialize (C1 eq_refl).
    destruct I as [I|I]; [inversion I; subst; exact L|].
    apply in_app_or in I. destruct I as [I|I].
    - pose proof (above_held _ _ _ _ _ C1 I). lia.
    - assert (rank (fr_field fr) < rank g); [|lia]. apply IH; auto. apply C1.
  Qed.

  Lemma above th f p k g kd :
    thread_ok th -> code_of th = Call f p k -> locking p = true ->
    In (g, kd) (own_held (held th) ++ own_stack (stack th)) -> rank f < rank g.
  Proof.
    intros [CO FO] E L I. rewrite E in CO. destruct CO as (C1 & _ & _). specialize (C1 L).
    apply in_app_or in I. destruct I as [I|I].
    - eapply above_held; eauto.
    - eapply above_stack; eauto. apply C1.
  Qed.

  (** A thread either moves, is finished, or waits in a call. *)
  Definition can_step (F : cells) (t : tid) (th : thread) : Prop :=
    exists r, tstep builder F t 0 th = Some r.

  Definition waits (F : cells) (t : tid) (th : thread) (f : fid) (p : pc) : Prop :=
    (exists k, code_of th = Call f p k) /\ pstep F t f p = None /\
    (forall h r, p <> Ret h r) /\ (forall m, p <> I_Build m).

  Lemma move_or_wait F t th : thread_ok th ->
    can_step F t th \/ finished th = true \/ exists f p, waits F t th f p.
  Proof.
    destruct th as [c l st]. unfold thread_ok, can_step, tstep, finished, waits. simpl.
    intros [CO FO]. destruct c as [[o|f c k]|f p k].
    - destruct l as [|[f h] rest]; [|left; eexists; reflexivity].
      destruct st as [|fr st]; [auto|left; eexists; reflexivity].
    - left. destruct (through_guard c) eqn:TG.
      + destruct (enter_guard_ok _ _ _ _ _ TG CO) as (h & l' & p & E1 & E2 & CO').
        rewrite E1, E2. eexists; reflexivity.
      + destruct c as [[]| | |]; simpl in *; try discriminate; eexists; reflexivity.
    - assert (E : (exists h r, p = Ret h r) \/ (exists m, p = I_Build m) \/
                  ((forall h r, p <> Ret h r) /\ (forall m, p <> I_Build m))).
      { destruct p; eauto; right; right; split; intros; discriminate. }
      destruct E as [(h & r & ->)|[(m & ->)|[N1 N2]]].
      + left. eexists. reflexivity.
      + left. eexists. reflexivity.
      + destruct (pstep F t f p) as [[F1 p1]|] eqn:E1.
        * left. exists (F1, mkthread (Call f p1 k) l st, []). destruct p; try reflexivity;
            [exfalso; eapply N1; reflexivity|exfalso; eapply N2; reflexivity].
        * right. right. exists f, p. eauto 7.
  Qed.

  (** What a waiting call waits for: the writer bit or the upgradable lock of its
      field, the writer bit of the other field of a comparison, or its readers. *)
  Definition weight (f : fid) (p : pc) : nat :=
    match p with
    | Q_Acq2 g => S (2 * rank g)
    | I_Drain _ | M_Drain _ | W_Drain | C_Drain | LW_Drain => 2 * rank f
    | _ => S (2 * rank f)
    end.

  Definition drain_pc (p : pc) : bool :=
    match p with I_Drain _ | M_Drain _ | W_Drain | C_Drain | LW_Drain => true | _ => false end.

  Lemma wait_cases F t f p :
    pstep F t f p = None -> (forall h r, p <> Ret h r) -> (forall m, p <> I_Build m) ->
    locking p = true /\
    ((own_pc f p = [] /\ weight f p = S (2 * rank f) /\
      exists u, lw (F f) = Some u \/ lu (F f) = Some u) \/
     (exists g u, p = Q_Acq2 g /\ lw (F g) = Some u) \/
     (drain_pc p = true /\ exists u, In u (lr (F f)))).
  Proof.
    intros S N1 N2. destruct p; try (exfalso; eapply N1; reflexivity); try (exfalso; eapply N2; reflexivity);
      simpl in S; cases_of S; try discriminate S; (split; [reflexivity|]);
      try (left; (split; [reflexivity|split; [reflexivity|eauto]]); fail);
      try (right; left; eauto; fail);
      (right; right; split; [reflexivity|eexists; left; reflexivity]).
  Qed.

  Lemma drain_facts f p : drain_pc p = true -> own_pc f p = [(f, KW)] /\ weight f p = 2 * rank f.
  Proof. destruct p; simpl; intros; try discriminate; auto. Qed.

  Lemma finished_owns th : finished th = true -> owns th = [].
  Proof.
    destruct th as [[[o|]|] [|] [|]]; simpl; intros; try discriminate; reflexivity.
  Qed.

  Lemma owner_thread s t f kd : owned s ->
    (kd = KW /\ lw (fields s f) = Some t \/ kd = KU /\ lu (fields s f) = Some t \/
     kd = KR /\ In t (lr (fields s f))) ->
    exists th, nth_error (threads s) t = Some th /\ In (f, kd) (owns th).
  Proof.
    intros [_ A] H. specialize (A t f). unfold owns_at in A.
    assert (G : cnt kd f (match nth_error (threads s) t with Some th => owns th | None => [] end) > 0).
    { destruct A as (A1 & A2 & A3). destruct H as [(-> & E)|[(-> & E)|(-> & E)]].
      - rewrite A1, E, at_most_self. lia.
      - rewrite A2, E, at_most_self. lia.
      - rewrite A3. now apply times_in. }
    destruct (nth_error (threads s) t) as [th|]; [|simpl in G; lia].
    exists th. split; [reflexivity|]. now apply cnt_in.
  Qed.

  Definition someone_moves (s : sys) : Prop :=
    exists t th, nth_error (threads s) t = Some th /\ can_step (fields s) t th.

  Lemma waiting_moves s : owned s -> all_ok s ->
    forall w t th f p, nth_error (threads s) t = Some th -> waits (fields s) t th f p ->
      weight f p <= w -> someone_moves s.
  Proof.
    intros O A. induction w as [w IH] using (well_founded_induction lt_wf).
    intros t th f p N W L.
    pose proof W as ((k & C) & PS & N1 & N2).
    destruct (wait_cases _ _ _ _ PS N1 N2) as (LP & HC).
    assert (OKof : forall u th', nth_error (threads s) u = Some th' -> thread_ok th').
    { intros u th' Nu. unfold all_ok in A. rewrite Forall_forall in A. apply A. eapply nth_error_In; eauto. }
    (* who is in the way *)
    assert (H : exists x kd u, (kd = KW /\ lw (fields s x) = Some u \/ kd = KU /\ lu (fields s x) = Some u \/
                               kd = KR /\ In u (lr (fields s x))) /\
               (kd <> KR /\ weight f p = S (2 * rank x) \/ kd = KR /\ weight f p = 2 * rank x)).
    { destruct HC as [(_ & WT & u & [E|E])|[(g & u & -> & E)|(D & u & E)]].
      - exists f, KW, u. split; [auto|left; split; [discriminate|exact WT]].
      - exists f, KU, u. split; [auto|left; split; [discriminate|exact WT]].
      - exists g, KW, u. split; [auto|left; split; [discriminate|reflexivity]].
      - exists f, KR, u. split; [auto 6|right; split; [reflexivity|apply (drain_facts _ _ D)]]. }
    destruct H as (x & kd & u & OW & WT).
    destruct (owner_thread _ _ _ _ O OW) as (thu & Nu & Iu).
    destruct (move_or_wait (fields s) u thu (OKof _ _ Nu)) as [M|[FI|(f' & p' & W')]].
    - exists u, thu. auto.
    - rewrite (finished_owns _ FI) in Iu. destruct Iu.
    - assert (LT : weight f' p' < w); [|eapply (IH (weight f' p')); eauto].
      pose proof W' as ((k' & C') & PS' & N1' & N2').
      destruct (wait_cases _ _ _ _ PS' N1' N2') as (LP' & HC').
      pose proof (OKof _ _ Nu) as OKu.
      assert (Q : forall g, p' = Q_Acq2 g -> rank g < rank f').
      { intros g ->. destruct OKu as [CO _]. rewrite C' in CO. apply CO. reflexivity. }
      assert (WB : weight f' p' <= S (2 * rank f')).
      { destruct p'; simpl; try lia. specialize (Q g eq_refl). lia. }
      unfold owns in Iu. rewrite C' in Iu. apply in_app_or in Iu. destruct Iu as [Iu|Iu].
      + simpl in Iu. destruct HC' as [(E0 & _)|[(g & u' & -> & _)|(D & _)]].
        * rewrite E0 in Iu. destruct Iu.
        * simpl in Iu. destruct Iu as [E|[]]. inversion E; subst.
          specialize (Q g eq_refl). simpl. destruct WT as [(X & _)|(_ & WT)]; [congruence|lia].
        * destruct (drain_facts f' p' D) as [E0 E1]. rewrite E0 in Iu.
          destruct Iu as [E|[]]. inversion E; subst. rewrite E1.
          destruct WT as [(_ & WT)|(X & _)]; [lia|discriminate].
      + pose proof (above _ _ _ _ _ _ OKu C' LP' Iu). destruct WT as [(_ & WT)|(_ & WT)]; lia.
  Qed.

  Lemma never_stuck s : owned s -> all_ok s ->
    (exists t r, step builder s (t, 0) = Some r) \/ Forall (fun th => finished th = true) (threads s).
  Proof.
    intros O A.
    assert (D : someone_moves s \/ Forall (fun th => finished th = true) (threads s)).
    { assert (H : forall t th, nth_error (threads s) t = Some th -> someone_moves s \/ finished th = true).
      { intros t th N. assert (OK : thread_ok th).
        { unfold all_ok in A. rewrite Forall_forall in A. apply A. eapply nth_error_In; eauto. }
        destruct (move_or_wait (fields s) t th OK) as [M|[FI|(f & p & W)]]; auto.
        - left. exists t, th. auto.
        - left. eapply waiting_moves; eauto. }
      assert (G : forall l, (forall th, In th l -> someone_moves s \/ finished th = true) ->
                  someone_moves s \/ Forall (fun th => finished th = true) l).
      { induction l as [|th l IH]; intros HI; [right; constructor|].
        destruct (HI th (or_introl eq_refl)) as [M|E]; [auto|].
        destruct IH as [M|FA]; [intros; apply HI; right; assumption|auto|].
        right. constructor; auto. }
      apply G. intros th I. destruct (In_nth_error _ _ I) as [t N]. eauto. }
    destruct D as [(t & th & N & ([[F1 th1] ev1] & S))|FA]; [|auto].
    left. exists t. unfold step. simpl. rewrite N, S. eexists; reflexivity.
  Qed.
End Ok.
