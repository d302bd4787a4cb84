(** Builders that depend on themselves never come back, and comparisons among
    readers never wait (proof support for properties C10 and C11). *)
From Coq Require Import List Bool Arith Lia.
From Verif Require Import ProxyTypes MultiSpec MultiModel MultiOwn MultiOrder MultiTerm.
Import ListNotations.

(** The field whose lock a call is waiting to get. *)
Definition asks (f : fid) (p : pc) : option fid :=
  match p with
  | I_Acq _ | W_Acq | C_Acq | K_Acq | D_Acq | Q_Acq _ | LR_Acq | LW_Acq => Some f
  | Q_Acq2 g => Some g
  | _ => None
  end.

Lemma asks_needs F t f p g F' p' : asks f p = Some g -> pstep F t f p = Some (F', p') -> lw (F g) = None.
Proof.
  intros A S. destruct p; simpl in A; try discriminate; inversion A; subst; simpl in S;
    cases_of S; try discriminate; reflexivity.
Qed.

Lemma asks_tstep builder F t n f p k l st g r :
  asks f p = Some g -> tstep builder F t n (mkthread (Call f p k) l st) = Some r -> lw (F g) = None.
Proof.
  intros A S. unfold tstep in S. simpl in S.
  destruct (pstep F t f p) as [[F' p']|] eqn:E; [eapply asks_needs; eauto|].
  destruct p; simpl in A; try discriminate; rewrite E in S; discriminate.
Qed.

Lemma owner_lw s t th f : owned s -> nth_error (threads s) t = Some th -> In (f, KW) (owns th) ->
  lw (fields s f) = Some t.
Proof.
  intros [_ A] N I. specialize (A t f). unfold owns_at in A. rewrite N in A.
  destruct A as (A & _). apply cnt_in in I. apply at_most_one. lia.
Qed.

Lemma frame_owns st fr : In fr st -> In (fr_field fr, KW) (own_stack st).
Proof.
  induction st as [|x st IH]; simpl; [tauto|]. intros [->|I]; [auto|].
  right. apply in_or_app. right. apply IH, I.
Qed.

Section Trap.
  Variable builder : fid -> nat -> prog.

  (** A thread that waits for a lock it owns exclusively itself. *)
  Lemma trapped s t th f p k g : owned s -> nth_error (threads s) t = Some th ->
    code_of th = Call f p k -> asks f p = Some g -> In (g, KW) (owns th) ->
    forall l s' ev, run builder s l = Some (s', ev) -> nth_error (threads s') t = Some th.
  Proof.
    intros O N C A I l s' ev R.
    assert (H : owned s' /\ nth_error (threads s') t = Some th); [|apply H].
    refine (run_ind builder (fun s => owned s /\ nth_error (threads s) t = Some th) _ _ _ _ _ R (conj O N)).
    clear s O N R. intros s a s1 e1 S [O N]. split; [eapply step_owned; eauto|].
    destruct (step_inv _ _ _ _ _ S) as (th0 & th' & N0 & T & E).
    destruct (Nat.eq_dec (fst a) t) as [<-|D].
    - rewrite N in N0. inversion N0; subst th0. destruct th as [c l0 st]. simpl in C. subst c.
      apply (asks_tstep _ _ _ _ _ _ _ _ _ _ _ A) in T.
      rewrite (owner_lw _ _ _ _ O N I) in T. discriminate.
    - rewrite E, (nth_set_other _ _ _ _ D). exact N.
  Qed.

  (** Events and a state property together. *)
  Lemma run_ind_ev (P : sys -> Prop) (Q : bevent -> Prop) :
    (forall s a s' ev, step builder s a = Some (s', ev) -> P s -> P s' /\ Forall Q ev) ->
    forall l s s' ev, run builder s l = Some (s', ev) -> P s -> P s' /\ Forall Q ev.
  Proof.
    intros H. induction l as [|a l IH]; simpl; intros s s' ev R PS.
    - inversion R; subst. auto.
    - destruct (step builder s a) as [[s1 e1]|] eqn:E; [|discriminate].
      destruct (run builder s1 l) as [[s2 e2]|] eqn:R2; [|discriminate].
      inversion R; subst. destruct (H _ _ _ _ E PS) as [P1 Q1].
      destruct (IH _ _ _ R2 P1) as [P2 Q2]. split; [exact P2|]. apply Forall_app; auto.
  Qed.

  Lemma run_forall (T : thread -> Prop) (Q : bevent -> Prop) (G : sys -> Prop) :
    (forall s t th n F' th' ev, G s -> nth_error (threads s) t = Some th ->
       tstep builder (fields s) t n th = Some (F', th', ev) -> T th ->
       T th' /\ Forall Q ev) ->
    (forall s a s' ev, step builder s a = Some (s', ev) -> G s -> Forall T (threads s) -> G s') ->
    forall l s s' ev, run builder s l = Some (s', ev) -> G s -> Forall T (threads s) ->
      (G s' /\ Forall T (threads s')) /\ Forall Q ev.
  Proof.
    intros HT HG l s s' ev R G0 T0.
    apply (run_ind_ev (fun s => G s /\ Forall T (threads s)) Q) with (l := l) (s := s); auto.
    clear l s s' ev R G0 T0. intros s a s' ev S [G0 T0].
    destruct (step_inv _ _ _ _ _ S) as (th & th' & N & TS & E).
    assert (Tt : T th) by (rewrite Forall_forall in T0; apply T0; eapply nth_error_In; eauto).
    destruct (HT _ _ _ _ _ _ _ G0 N TS Tt) as [T1 Q1].
    split; [|exact Q1]. split; [eapply HG; eauto|]. rewrite E. now apply Forall_set.
  Qed.

  (** A builder that must touch its own field. *)
  Section Self.
    Variable f : fid.
    Hypothesis MT : forall n, must_touch f (builder f n).

    Definition caught (c : code) : Prop :=
      match c with
      | User p => must_touch f p
      | Call g p k => asks g p = Some f \/ other_field p = Some f \/ forall r, must_touch f (k r)
      end.

    Fixpoint chain (above : Prop) (st : list frame) : Prop :=
      match st with
      | [] => True
      | fr :: st' => (fr_field fr = f -> above) /\ chain (forall r, must_touch f (fr_cont fr r)) st'
      end.

    Definition self_ok (th : thread) : Prop := chain (caught (code_of th)) (stack th).

    Definition not_back (e : bevent) : Prop :=
      match e with BEnd _ g _ => g <> f | _ => True end.

    Lemma chain_imp (P Q : Prop) st : (P -> Q) -> chain P st -> chain Q st.
    Proof. destruct st; simpl; tauto. Qed.

    Lemma self_step s t th n F' th' ev : owned s -> nth_error (threads s) t = Some th ->
      tstep builder (fields s) t n th = Some (F', th', ev) -> self_ok th ->
      (self_ok th' /\ Forall not_back ev) /\
      (forall fr rest, fr_field fr = f -> (exists top, stack th = top ++ fr :: rest) ->
                       exists top, stack th' = top ++ fr :: rest).
    Proof.
      intros O N S CH. destruct th as [c l st].
      (* while the code is caught at its very lock there is no step *)
      assert (NS : forall g p k fr st', c = Call g p k -> st = fr :: st' -> fr_field fr = f ->
                   asks g p = Some f -> False).
      { intros g p k fr st' -> -> E A. pose proof (asks_tstep _ _ _ _ _ _ _ _ _ _ _ A S) as W.
        assert (I : In (f, KW) (owns (mkthread (Call g p k) l (fr :: st')))).
        { unfold owns. apply in_or_app. right. apply in_or_app. right. simpl. left. now rewrite E. }
        rewrite (owner_lw _ _ _ _ O N I) in W. discriminate. }
      unfold self_ok, tstep in *. simpl in *.
      assert (SAME : forall c' l', th' = mkthread c' l' st -> ev = [] ->
        (forall fr st', st = fr :: st' -> fr_field fr = f -> caught c -> caught c') ->
        (chain (caught (code_of th')) (stack th') /\ Forall not_back ev) /\
        (forall fr rest, fr_field fr = f -> (exists top, st = top ++ fr :: rest) ->
                       exists top, stack th' = top ++ fr :: rest)).
      { intros c' l' -> -> H. simpl. split; [split; [|constructor]|auto].
        destruct st as [|fr st]; simpl in *; [auto|]. split; [|tauto].
        intros E. eapply H; eauto. tauto. }
      destruct c as [[o|g c k]|g p k].
      - destruct l as [|[g h] rest].
        + destruct st as [|fr st]; [discriminate|]. inversion S; subst; clear S. simpl in *.
          destruct CH as [CH1 CH2].
          assert (NE : fr_field fr <> f) by tauto.
          split.
          * split; [|constructor; [exact NE|constructor]].
            eapply chain_imp; [|exact CH2]. auto.
          * intros fr' rest E (top & T). destruct top as [|x top]; simpl in T; inversion T; subst.
            -- congruence.
            -- eauto.
        + inversion S; subst. eapply SAME; eauto.
      - destruct (through_guard c) eqn:TG.
        + destruct (take_guard g l) as [[h l']|]; [|discriminate].
          destruct (enter_guard h c) as [p|] eqn:EG; [|discriminate]. inversion S; subst.
          eapply SAME; eauto. intros _ _ _ _. simpl. intros [[-> TL]|[->|H]]; [|discriminate|auto].
          destruct c as [[]| | |]; discriminate.
        + destruct (enter c) as [p|] eqn:E; [|discriminate]. inversion S; subst.
          eapply SAME; eauto. intros _ _ _ _. simpl. intros [[-> TL]|[->|H]]; [| |auto].
          * left. destruct c as [[]| | |]; simpl in E, TL; inversion E; subst; try discriminate; reflexivity.
          * simpl in E. inversion E; subst. right. left. reflexivity.
      - assert (P : forall F1 p1, pstep (fields s) t g p = Some (F1, p1) ->
                  Some (F1, mkthread (Call g p1 k) l st, @nil bevent) = Some (F', th', ev) ->
                  (chain (caught (code_of th')) (stack th') /\ Forall not_back ev) /\
                  (forall fr rest, fr_field fr = f -> (exists top, st = top ++ fr :: rest) ->
                                 exists top, stack th' = top ++ fr :: rest)).
        { intros F1 p1 E1 E2. inversion E2; subst. eapply SAME; eauto.
          intros fr st' E EF. simpl. intros [A|[A|H]]; [exfalso; eauto| |auto].
          destruct p; simpl in A; try discriminate; inversion A; subst.
          - simpl in E1. cases_of E1; try discriminate. inversion E1; subst. right. left. reflexivity.
          - exfalso. eapply NS; eauto. }
        destruct p;
          try (destruct (pstep _ t g _) as [[F1 p1]|] eqn:E1 in S; [|discriminate S];
               eapply P; [exact E1|exact S]).
        + inversion S; subst. eapply SAME; eauto. intros _ _ _ _. simpl.
          intros [A|[A|H]]; try discriminate. auto.
        + inversion S; subst. simpl in *. split.
          * split; [|repeat constructor]. split; [intros ->; apply MT|].
            eapply chain_imp; [|exact CH]. intros [A|[A|H]]; try discriminate. exact H.
          * intros fr rest EF (top & ->). exists (mkframe g m k l :: top). reflexivity.
    Qed.

    Lemma self_run l s s' ev : run builder s l = Some (s', ev) -> owned s -> Forall self_ok (threads s) ->
      (owned s' /\ Forall self_ok (threads s')) /\ Forall not_back ev.
    Proof.
      intros R O T. eapply (run_forall self_ok not_back owned); eauto.
      - intros. eapply self_step; eauto.
      - intros. eapply step_owned; eauto.
    Qed.

    Lemma self_start v0 ps : Forall self_ok (threads (start v0 ps)).
    Proof.
      unfold start. simpl. rewrite Forall_forall. intros th I.
      apply in_map_iff in I. destruct I as (p & <- & _). exact Logic.I.
    Qed.

    (** A suspended call whose builder runs is never resumed. *)
    Lemma self_stays l s s' ev t th fr rest top : run builder s l = Some (s', ev) -> owned s ->
      Forall self_ok (threads s) -> nth_error (threads s) t = Some th ->
      fr_field fr = f -> stack th = top ++ fr :: rest ->
      exists th' top', nth_error (threads s') t = Some th' /\ stack th' = top' ++ fr :: rest.
    Proof.
      revert s s' ev th top. induction l as [|a l IH]; simpl; intros s s' ev th top R O T N E ST.
      - inversion R; subst. eauto.
      - destruct (step builder s a) as [[s1 e1]|] eqn:S; [|discriminate].
        destruct (run builder s1 l) as [[s2 e2]|] eqn:R2; [|discriminate].
        inversion R; subst.
        destruct (step_inv _ _ _ _ _ S) as (th0 & th1 & N0 & TS & ET).
        assert (O1 : owned s1) by (eapply step_owned; eauto).
        assert (S0 : self_ok th0) by (rewrite Forall_forall in T; apply T; eapply nth_error_In; eauto).
        destruct (self_step _ _ _ _ _ _ _ O N0 TS S0) as ((S1 & _) & K).
        assert (T1 : Forall self_ok (threads s1)) by (rewrite ET; now apply Forall_set).
        destruct (Nat.eq_dec (fst a) t) as [<-|D].
        + rewrite N in N0. inversion N0; subst th0.
          destruct (K fr rest E (ex_intro _ top ST)) as (top1 & ST1).
          eapply IH; eauto. rewrite ET. eapply nth_set_same; eauto.
        + eapply IH; eauto. rewrite ET, (nth_set_other _ _ _ _ D). exact N.
    Qed.
  End Self.

  (** A set of fields whose builders need each other. *)
  Section Cycle.
    Variable C : fid -> Prop.
    Hypothesis MR : forall f n, C f -> must_read C (builder f n).
    Hypothesis NSb : forall f n, never_stores C (builder f n).

    Definition pre_build (p : pc) : bool :=
      match p with
      | I_Acq _ | I_Check _ | I_Upg _ | I_Drain _ | I_Recheck _ | I_Build _ => true
      | _ => false
      end.

    Definition calm (p : pc) : bool :=
      match p with
      | I_SetVal _ _ | I_SetFlag _ | I_Down _ | I_Done _ | I_Fail _ _ | I_Unwind _
      | M_Upg _ | M_Drain _ | G_Set _ | S_Flag _ | S_Rep _ => false
      | _ => true
      end.

    Definition awaits (c : code) : Prop :=
      match c with
      | User p => must_read C p
      | Call g p k => (C g /\ pre_build p = true) \/ forall r, must_read C (k r)
      end.

    Fixpoint links (above : Prop) (st : list frame) : Prop :=
      match st with
      | [] => True
      | fr :: st' =>
          (C (fr_field fr) -> above) /\
          links (C (fr_field fr) \/ forall r, must_read C (fr_cont fr r)) st'
      end.

    Definition quiet (c : code) : Prop :=
      match c with
      | User p => never_stores C p
      | Call g p k => (C g -> calm p = true) /\ forall r, never_stores C (k r)
      end.

    Definition cyc_ok (th : thread) : Prop :=
      quiet (code_of th) /\
      Forall (fun fr => forall r, never_stores C (fr_cont fr r)) (stack th) /\
      links (awaits (code_of th)) (stack th).

    Definition unset (s : sys) : Prop := forall f, C f -> value (fields s f) = None.

    Definition not_back_any (e : bevent) : Prop :=
      match e with BEnd _ g _ => ~ C g | _ => True end.

    Lemma links_imp (P Q : Prop) st : (P -> Q) -> links P st -> links Q st.
    Proof. destruct st; simpl; tauto. Qed.

    Lemma release_value F t f h g : value (release F t f h g) = value (F g).
    Proof.
      destruct h; simpl; try reflexivity; unfold upd; destruct (Nat.eqb_spec g f); subst; reflexivity.
    Qed.

    Lemma pstep_calm F t f p F' p' : pstep F t f p = Some (F', p') -> value (F f) = None ->
      calm p = true -> calm p' = true.
    Proof.
      intros S V. destruct p; simpl in S; try discriminate S; simpl; try discriminate; rewrite ?V in S;
        cases_of S; try discriminate S; inversion S; subst; auto.
    Qed.

    Lemma pstep_pre F t f p F' p' : pstep F t f p = Some (F', p') -> value (F f) = None ->
      pre_build p = true -> pre_build p' = true.
    Proof.
      intros S V. destruct p; simpl in S; try discriminate S; simpl; try discriminate; rewrite ?V in S;
        cases_of S; try discriminate S; inversion S; subst; auto.
    Qed.

    Lemma pstep_unset F t f p F' p' g : pstep F t f p = Some (F', p') -> value (F g) = None ->
      (g = f -> calm p = true) -> value (F' g) = None.
    Proof.
      intros S V K. destruct p; simpl in S; try discriminate S;
        cases_of S; try discriminate S; inversion S; subst; clear S;
        rewrite ?release_value; try exact V;
        unfold upd;
        match goal with |- context [Nat.eqb g ?x] => destruct (Nat.eqb_spec g x) end;
        try exact V; subst; simpl; first [exact V | reflexivity | specialize (K eq_refl); discriminate].
    Qed.

    Lemma cyc_step F t n th F' th' ev :
      (forall f, C f -> value (F f) = None) ->
      tstep builder F t n th = Some (F', th', ev) -> cyc_ok th ->
      (cyc_ok th' /\ Forall not_back_any ev) /\ (forall f, C f -> value (F' f) = None).
    Proof.
      intros U S (QC & NF & LK). destruct th as [c l st].
      unfold cyc_ok, tstep in *. simpl in *.
      assert (SAME : forall c' l', th' = mkthread c' l' st -> ev = [] ->
        quiet c' -> (awaits c -> awaits c') -> (forall f, C f -> value (F' f) = None) ->
        ((quiet (code_of th') /\
          Forall (fun fr => forall r, never_stores C (fr_cont fr r)) (stack th') /\
          links (awaits (code_of th')) (stack th')) /\ Forall not_back_any ev) /\
        (forall f, C f -> value (F' f) = None)).
      { intros c' l' -> -> Q A U'. simpl. repeat split; auto. eapply links_imp; eauto. }
      destruct c as [[o|g c k]|g p k].
      - destruct l as [|[g h] rest].
        + destruct st as [|fr st]; [discriminate|]. inversion S; subst; clear S. simpl in *.
          destruct LK as [LK1 LK2]. inversion NF; subst.
          assert (NE : ~ C (fr_field fr)) by tauto.
          repeat split; auto.
          eapply links_imp; [|exact LK2]. intros [H|H]; [tauto|auto].
        + inversion S; subst. eapply SAME; eauto. intros f Cf. rewrite release_value. auto.
      - destruct QC as [QC1 QC2]. destruct (through_guard c) eqn:TG.
        + destruct (take_guard g l) as [[h l']|]; [|discriminate].
          destruct (enter_guard h c) as [p|] eqn:EG; [|discriminate]. inversion S; subst.
          eapply SAME; eauto.
          * simpl. split; [|auto]. intros Cg. specialize (QC1 Cg).
            destruct h, c as [[]| | |]; simpl in EG, QC1; inversion EG; subst; try tauto; reflexivity.
          * simpl. intros [[_ H]|H]; [|auto]. destruct c as [[]| | |]; simpl in *; try discriminate; tauto.
        + destruct (enter c) as [p|] eqn:E; [|discriminate]. inversion S; subst.
          eapply SAME; eauto.
          * simpl. split; [|auto]. intros _.
            destruct c as [[]| | |]; simpl in E; inversion E; subst; reflexivity.
          * simpl. intros [[Cg H]|H]; [|auto]. left. split; [exact Cg|].
            destruct c as [[]| | |]; simpl in E, H; inversion E; subst; try tauto; reflexivity.
      - destruct QC as [QC1 QC2].
        assert (P : forall F1 p1, pstep F t g p = Some (F1, p1) ->
                  Some (F1, mkthread (Call g p1 k) l st, @nil bevent) = Some (F', th', ev) ->
        ((quiet (code_of th') /\
          Forall (fun fr => forall r, never_stores C (fr_cont fr r)) (stack th') /\
          links (awaits (code_of th')) (stack th')) /\ Forall not_back_any ev) /\
        (forall f, C f -> value (F' f) = None)).
        { intros F1 p1 E1 E2. inversion E2; subst. eapply SAME; eauto.
          - simpl. split; [|auto]. intros Cg. eapply pstep_calm; eauto.
          - simpl. intros [[Cg H]|H]; [left|auto]. split; [exact Cg|]. eapply pstep_pre; eauto.
          - intros f Cf. eapply pstep_unset; eauto. intros ->. auto. }
        destruct p;
          try (destruct (pstep F t g _) as [[F1 p1]|] eqn:E1 in S; [|discriminate S];
               eapply P; [exact E1|exact S]).
        + inversion S; subst. eapply SAME; eauto.
          * simpl. apply QC2.
          * simpl. intros [[_ H]|H]; [discriminate|auto].
        + inversion S; subst. simpl in *. repeat split; auto.
          * eapply links_imp; [|exact LK]. intros [[H _]|H]; auto.
          * constructor; [exact I|constructor].
    Qed.

    Lemma cyc_run l s s' ev : run builder s l = Some (s', ev) -> unset s -> Forall cyc_ok (threads s) ->
      (unset s' /\ Forall cyc_ok (threads s')) /\ Forall not_back_any ev.
    Proof.
      intros R O T. eapply (run_forall cyc_ok not_back_any unset); eauto.
      - intros s0 t th n F' th' ev0 U N TS K. eapply cyc_step; eauto.
      - intros s0 a s1 e1 S U TA. destruct (step_inv _ _ _ _ _ S) as (th & th' & N & TS & E).
        assert (K : cyc_ok th) by (rewrite Forall_forall in TA; apply TA; eapply nth_error_In; eauto).
        destruct (cyc_step _ _ _ _ _ _ _ U TS K) as [_ U']. exact U'.
    Qed.

    Lemma cyc_start v0 ps : (forall f, C f -> v0 f = None) -> Forall (never_stores C) ps ->
      unset (start v0 ps) /\ Forall cyc_ok (threads (start v0 ps)).
    Proof.
      intros V P. split; [intros f Cf; simpl; auto|].
      unfold start. simpl. rewrite Forall_forall in *. intros th I.
      apply in_map_iff in I. destruct I as (p & <- & I). split; [apply P; exact I|].
      simpl. auto.
    Qed.
  End Cycle.

  (** Threads that only share never wait. *)
  Definition share_pc (p : pc) : bool :=
    match p with
    | Ret h _ => match h with HNone | HR => true | _ => false end
    | L_Load | K_Acq | K_Val | K_Flag _ | K_Rel _ _ | D_Acq | D_Val | D_Rel _
    | Q_Acq _ | Q_Acq2 _ | Q_Cmp _ | Q_Rel2 _ _ | Q_Rel _ | LR_Acq | LR_Map => true
    | G_Get h | G_Drop h => match h with HR => true | _ => false end
    | _ => false
    end.

  Definition shares (th : thread) : Prop :=
    stack th = [] /\ (forall f h, In (f, h) (held th) -> h = HR) /\
    match code_of th with
    | User p => only_shares p
    | Call f p k => share_pc p = true /\ forall r, only_shares (k r)
    end.

  Definition no_writer (s : sys) : Prop :=
    forall f, lw (fields s f) = None /\ lu (fields s f) = None.

  Lemma take_guard_in f l h l' : take_guard f l = Some (h, l') ->
    In (f, h) l /\ (forall x, In x l' -> In x l).
  Proof.
    revert l'. induction l as [|[x y] l IH]; intros l' E; simpl in E; [discriminate|].
    destruct (Nat.eqb_spec x f).
    - inversion E; subst. split; [left; reflexivity|right; assumption].
    - destruct (take_guard f l) as [[h1 l1]|] eqn:T; [|discriminate]. inversion E; subst.
      destruct (IH l1 eq_refl) as [I1 I2]. split; [right; exact I1|].
      intros z [<-|I]; [left; reflexivity|right; auto].
  Qed.

  Lemma release_share F t f g : (forall f, lw (F f) = None /\ lu (F f) = None) ->
    lw (release F t f HR g) = None /\ lu (release F t f HR g) = None.
  Proof.
    intros H. simpl. unfold upd. destruct (Nat.eqb g f); [simpl|]; apply H.
  Qed.

  Lemma share_step F t n th F' th' ev :
    (forall f, lw (F f) = None /\ lu (F f) = None) ->
    tstep builder F t n th = Some (F', th', ev) -> shares th ->
    shares th' /\ (forall f, lw (F' f) = None /\ lu (F' f) = None).
  Proof.
    intros U S (ST & HR & CO). destruct th as [c l st]. simpl in *. subst st.
    unfold tstep in S. simpl in S. destruct c as [[o|f c k]|f p k].
    - destruct l as [|[f h] rest]; [discriminate|].
      assert (h = ProxyTypes.HR) by (apply (HR f); left; reflexivity). subst h.
      inversion S; subst; clear S.
      split; [|intros g; exact (release_share F t f g U)].
      split; [reflexivity|]. split; [|exact I]. intros g h' IN. apply (HR g). right. exact IN.
    - destruct CO as [C1 C2]. destruct (through_guard c) eqn:TG.
      + destruct (take_guard f l) as [[h l']|] eqn:TK; [|discriminate].
        destruct (take_guard_in _ _ _ _ TK) as [I1 I2].
        assert (h = ProxyTypes.HR) by (apply (HR f); exact I1). subst h.
        destruct (enter_guard ProxyTypes.HR c) as [p|] eqn:E; [|discriminate]. inversion S; subst.
        split; [|exact U]. split; [reflexivity|]. split; [intros g h' IN; apply (HR g); auto|].
        split; [|exact C2]. destruct c as [[]| | |]; simpl in E; inversion E; subst; reflexivity.
      + destruct (enter c) as [p|] eqn:E; [|discriminate]. inversion S; subst.
        split; [|exact U]. split; [reflexivity|]. split; [exact HR|].
        split; [|exact C2]. destruct c as [[]| | |]; simpl in E, C1; inversion E; subst; tauto.
    - destruct CO as [C1 C2].
      assert (P : forall F1 p1, pstep F t f p = Some (F1, p1) ->
                  Some (F1, mkthread (Call f p1 k) l [], @nil bevent) = Some (F', th', ev) ->
                  shares th' /\ (forall f, lw (F' f) = None /\ lu (F' f) = None)).
      { intros F1 p1 E1 E2. inversion E2; subst. split.
        - split; [reflexivity|]. split; [exact HR|]. split; [|exact C2].
          destruct p; simpl in C1; try discriminate; try (destruct h; try discriminate);
            simpl in E1; cases_of E1; try discriminate; inversion E1; subst; reflexivity.
        - intros g. destruct p; simpl in C1; try discriminate; try (destruct h; try discriminate);
            simpl in E1; cases_of E1; try discriminate;
            inversion E1; subst; try apply U; try (exact (release_share F t _ g U));
            unfold upd;
            match goal with |- context [Nat.eqb g ?x] => destruct (Nat.eqb_spec g x) end;
            subst; simpl; try apply U; split; try reflexivity; try apply U. }
      destruct p; simpl in C1; try discriminate;
        try (destruct (pstep F t f _) as [[F1 p1]|] eqn:E1 in S; [|discriminate S];
             eapply P; [exact E1|exact S]).
      inversion S; subst. split; [|exact U]. split; [reflexivity|].
      split; [|apply C2]. simpl. destruct h; try discriminate; simpl.
      + exact HR.
      + intros g h' [E|IN]; [inversion E; reflexivity|eauto].
  Qed.

  Lemma share_run l s s' ev : run builder s l = Some (s', ev) -> no_writer s -> Forall shares (threads s) ->
    no_writer s' /\ Forall shares (threads s').
  Proof.
    intros R O T. eapply (run_forall shares (fun _ => True) no_writer); eauto.
    - intros s0 t th n F' th' ev0 U N TS K. split; [eapply share_step; eauto|].
      rewrite Forall_forall; auto.
    - intros s0 a s1 e1 S U TA. destruct (step_inv _ _ _ _ _ S) as (th & th' & N & TS & E).
      assert (K : shares th) by (rewrite Forall_forall in TA; apply TA; eapply nth_error_In; eauto).
      destruct (share_step _ _ _ _ _ _ _ U TS K) as [_ U']. exact U'.
  Qed.

  Lemma share_moves F t n th f p k :
    (forall f, lw (F f) = None /\ lu (F f) = None) -> shares th -> code_of th = Call f p k ->
    exists r, tstep builder F t n th = Some r.
  Proof.
    intros U (_ & _ & CO) E. rewrite E in CO. destruct CO as [C1 _]. unfold tstep. rewrite E.
    destruct (U f) as [W _].
    destruct p; simpl in C1; try discriminate; simpl; rewrite ?W; try (eexists; reflexivity).
    all: try (destruct (value (F f)); eexists; reflexivity).
    destruct (U g) as [W2 _]. rewrite W2. eexists; reflexivity.
  Qed.

  Lemma share_start v0 ps : Forall only_shares ps ->
    no_writer (start v0 ps) /\ Forall shares (threads (start v0 ps)).
  Proof.
    intros P. split; [intros f; simpl; auto|].
    unfold start. simpl. rewrite Forall_forall in *. intros th I.
    apply in_map_iff in I. destruct I as (p & <- & I). split; [reflexivity|].
    split; [intros f h []|]. apply P. exact I.
  Qed.

  (** A call into a field that is being built by the same thread. *)
  Lemma reentrant_call v0 ps l s ev t th g c k :
    run builder (start v0 ps) l = Some (s, ev) ->
    nth_error (threads s) t = Some th ->
    code_of th = User (PCall g c k) -> takes_lock c = true ->
    (exists fr, In fr (stack th) /\ fr_field fr = g) ->
    forall l' s' ev', run builder s l' = Some (s', ev') ->
    exists th', nth_error (threads s') t = Some th' /\
      stack th' = stack th /\ held th' = held th /\
      (code_of th' = User (PCall g c k) \/
       exists p, enter c = Some p /\ code_of th' = Call g p k).
  Proof.
    intros R N C TL (fr & IF & EF) l' s' ev' R'.
    pose (P := fun s => owned s /\ exists th', nth_error (threads s) t = Some th' /\
      stack th' = stack th /\ held th' = held th /\
      (code_of th' = User (PCall g c k) \/
       exists p, enter c = Some p /\ code_of th' = Call g p k)).
    assert (G : P s'); [|apply G].
    refine (run_ind builder P _ _ _ _ _ R' _).
    - clear - IF EF TL. intros s a s1 e1 S (O & th1 & N1 & ST & HE & CO).
      split; [eapply step_owned; eauto|].
      destruct (step_inv _ _ _ _ _ S) as (th0 & th' & N0 & T & E).
      destruct (Nat.eq_dec (fst a) t) as [<-|D].
      + rewrite N1 in N0. inversion N0; subst th0. exists th'. rewrite E.
        split; [eapply nth_set_same; eauto|].
        assert (OW : In (g, KW) (owns th1)).
        { unfold owns. apply in_or_app. right. apply in_or_app. right. rewrite ST, <- EF.
          now apply frame_owns. }
        destruct th1 as [c1 l1 st1]. simpl in *. subst st1 l1.
        destruct CO as [->|(p & EP & ->)].
        * unfold tstep in T. simpl in T.
          assert (TG : through_guard c = false) by (destruct c as [[]| | |]; simpl in *; auto; discriminate).
          rewrite TG in T. destruct (enter c) as [p|] eqn:EP; [|discriminate].
          inversion T; subst. simpl. eauto 6.
        * exfalso. assert (A : asks g p = Some g).
          { destruct c as [[]| | |]; simpl in *; inversion EP; subst; try discriminate; reflexivity. }
          pose proof (asks_tstep _ _ _ _ _ _ _ _ _ _ _ A T) as W.
          rewrite (owner_lw _ _ _ _ O N1 OW) in W. discriminate.
      + exists th1. rewrite E, (nth_set_other _ _ _ _ D). auto.
    - split; [eapply reach_owned; eauto|]. exists th. auto.
  Qed.
End Trap.

(** Code that never holds two locks keeps to any order. *)
Lemma one_lock_orderly rank p : forall l, orderly (fun _ => 0) None l p -> orderly rank None l p.
Proof.
  induction p as [o|f c k IH]; intros l; [auto|].
  assert (L : lower (fun _ => 0) None l f -> lower rank None l f).
  { intros [_ H]. split; [discriminate|]. intros g h I. specialize (H g h I). lia. }
  destruct c as [[]| | |]; simpl;
    try (intros (h & l' & T & CA & H); exists h, l'; repeat split; auto; fail);
    intros (H1 & H2 & H3); (split; [auto|split; [|auto]]); try discriminate.
  intros g' E. specialize (H2 g' E). lia.
Qed.
