(** Tasks that wait for themselves never go on by themselves (proof support for
    properties C61 and C64), and calls that are not async (C62). *)
From Coq Require Import List Bool Arith Lia.
From Verif Require Import ProxyTypes MultiSpec TaskSpec TaskModel TaskOwn TaskOrder TaskTerm.
Import ListNotations.

(** The lock a call is about to ask for or waits for; [true]: for itself alone. *)
Definition asks (f : fid) (p : pc) : option (fid * bool) :=
  match p with
  | I_Acq _ | I_Wait _ | W_Acq | W_Wait | C_Acq | C_Wait | LW_Acq | LW_Wait => Some (f, true)
  | K_Acq | K_Wait | D_Acq | D_Wait | Q_Acq _ | Q_Wait _ | LR_Acq | LR_Wait => Some (f, false)
  | Q_Acq2 g | Q_Wait2 g => Some (g, false)
  | _ => None
  end.

(** Calls that panic instead of waiting when made inside the runtime. *)
Definition blocks (p : pc) : bool :=
  match p with K_Acq | D_Acq | Q_Acq _ => true | _ => false end.

Lemma request_busy F t f w yes no F' p' :
  free (F f) w = false -> request F t f w yes no = Some (F', p') -> p' = no.
Proof.
  intros FR. unfold request. rewrite FR. destruct (lq (F f)); intros E; inversion E; reflexivity.
Qed.

Lemma served_busy F t f w yes : free (F f) w = false -> served F t f w yes = None.
Proof.
  intros FR. unfold served. destruct (lq (F f)) as [|[u b] q]; [reflexivity|].
  now rewrite FR, andb_false_r.
Qed.

(** While the lock is not free the call keeps asking. *)
Lemma asks_step F t ins f p x w F' p' : asks f p = Some (x, w) -> free (F x) w = false ->
  (blocks p = false \/ ins = false) ->
  pstep F t ins f p = Some (F', p') -> asks f p' = Some (x, w) /\ blocks p' = false.
Proof.
  intros A FR BL S. destruct p; simpl in A; try discriminate; inversion A; subst; simpl in S;
    unfold blocking_read in S; simpl in BL;
    try (destruct BL as [BL|BL]; [discriminate|subst ins]);
    try (rewrite served_busy in S by exact FR; discriminate);
    try (apply request_busy in S; [subst; auto|exact FR]).
Qed.

Lemma owner_free s t th f kd w : owned s -> nth_error (tasks s) t = Some th -> In (f, kd) (owns th) ->
  kd = KW \/ (kd = KR /\ w = true) -> free (fields s f) w = false.
Proof.
  intros O N I H. specialize (O t f). unfold owns_at in O. rewrite N in O. destruct O as (OW & OR & _).
  apply cnt_in in I. unfold free. destruct H as [->|[-> ->]].
  - assert (E : lw (fields s f) = Some t) by (apply at_most_one; lia). now rewrite E.
  - destruct (lw (fields s f)); [reflexivity|]. destruct (lr (fields s f)); [|reflexivity].
    simpl in OR. lia.
Qed.

Lemma owner_lw s t th f : owned s -> nth_error (tasks s) t = Some th -> In (f, KW) (owns th) ->
  lw (fields s f) = Some t.
Proof.
  intros A N I. specialize (A t f). unfold owns_at in A. rewrite N in A.
  destruct A as (A & _). apply cnt_in in I. apply at_most_one. lia.
Qed.

Lemma frame_owns st fr : In fr st -> In (fr_field fr, KW) (own_stack st).
Proof.
  induction st as [|x st IH]; simpl; [tauto|]. intros [->|I]; [auto|].
  right. apply in_or_app. right. apply IH, I.
Qed.

Lemma held_owns l f h : In (f, h) l -> h <> HNone ->
  In (f, match h with HR => KR | _ => KW end) (own_held l).
Proof.
  induction l as [|[g x] l IH]; simpl; [tauto|]. intros [E|I] NE; apply in_or_app; [left|right; auto].
  inversion E; subst. destruct h; simpl; auto; congruence.
Qed.

Lemma frame_held_owns st fr f kd : In fr st -> In (f, kd) (own_held (fr_held fr)) -> In (f, kd) (own_stack st).
Proof.
  induction st as [|x st IH]; simpl; [tauto|]. intros [->|I] J; right; apply in_or_app; auto.
Qed.

Lemma unwind_in n st gs fr st' : unwind n st = Some (gs, fr, st') -> In fr st /\ (forall x, In x st' -> In x st).
Proof.
  revert st gs. induction n as [|n IH]; intros [|x st] gs E; simpl in E; try discriminate.
  - inversion E; subst. simpl. auto.
  - destruct (unwind n st) as [[[gs1 fr1] st1]|] eqn:U; [|discriminate]. inversion E; subst.
    destruct (IH _ _ U) as [I1 I2]. simpl. auto.
Qed.

Lemma unwind_last n st gs fr st' : unwind n st = Some (gs, fr, st') -> length st = S n -> st' = [].
Proof.
  revert st gs. induction n as [|n IH]; intros [|x st] gs E L; simpl in E, L; try discriminate.
  - inversion E; subst. destruct st'; [reflexivity|discriminate].
  - destruct (unwind n st) as [[[gs1 fr1] st1]|] eqn:U; [|discriminate]. inversion E; subst.
    eapply IH; eauto.
Qed.

Lemma innermost_value F t c F' gs g : innermost F t c = Some (F', gs) -> value (F' g) = value (F g).
Proof.
  destruct c as [p|f c p k|gs0 nx]; simpl; try discriminate; [intros E; inversion E; reflexivity|].
  destruct (at_await p); [|discriminate]. intros E; inversion E; subst.
  unfold upd. destruct (Nat.eqb_spec g f); subst; reflexivity.
Qed.

Section Trap.
  Variable inside : tid -> bool.
  Variable builder : fid -> nat -> prog.

  (** What an action other than [Go] does: the code is left, with what was wanted;
      events and values stay out of it.  [near]: only the task's own futures. *)
  Lemma act_inv F t a th F' th' ev : act_step inside builder F t a th = Some (F', th', ev) ->
    (exists n, a = Go n /\ tstep inside builder F t n th = Some (F', th', ev)) \/
    (ev = [] /\ (forall n, a <> Go n) /\ (forall g, value (F' g) = value (F g)) /\
     ((exists gs f c p k, code_of th = Call f c p k /\ at_await p <> None /\
         th' = mktask (Leave gs (Some (f, c, k))) (held th) (stack th)) \/
      (exists gs fr st', In fr (stack th) /\ (forall x, In x st' -> In x (stack th)) /\
         th' = mktask (Leave gs (Some (fr_field fr, fr_call fr, fr_cont fr))) (fr_held fr) st') \/
      (exists gs, th' = mktask (Leave gs None) [] [])) /\
     (builders_left_alone (t, a) -> stack th' = [])).
  Proof.
    intros S.
    assert (DC : forall F1 th1, drop_call F t th = Some (F1, th1) ->
      (forall g, value (F1 g) = value (F g)) /\
      exists gs f c p k, code_of th = Call f c p k /\ at_await p <> None /\
         th1 = mktask (Leave gs (Some (f, c, k))) (held th) (stack th)).
    { intros F1 th1 E. unfold drop_call in E. destruct (code_of th) as [p|f c p k|gs nx] eqn:C; try discriminate.
      destruct (innermost F t (Call f c p k)) as [[F2 gs]|] eqn:I; [|discriminate]. inversion E; subst.
      split; [intros g; eapply innermost_value; eauto|].
      exists gs, f, c, p, k. split; [reflexivity|]. split; [|reflexivity].
      simpl in I. destruct (at_await p); [discriminate|discriminate I]. }
    assert (DF : forall n F1 th1, drop_frame F t th n = Some (F1, th1) ->
      (forall g, value (F1 g) = value (F g)) /\
      (exists gs fr st', In fr (stack th) /\ (forall x, In x st' -> In x (stack th)) /\
         th1 = mktask (Leave gs (Some (fr_field fr, fr_call fr, fr_cont fr))) (fr_held fr) st') /\
      (length (stack th) = Datatypes.S n -> stack th1 = [])).
    { intros n F1 th1 E. unfold drop_frame in E.
      destruct (innermost F t (code_of th)) as [[F2 gs]|] eqn:I; [|discriminate].
      destruct (unwind n (stack th)) as [[[gs1 fr] st1]|] eqn:U; [|discriminate]. inversion E; subst.
      split; [intros g; eapply innermost_value; eauto|].
      destruct (unwind_in _ _ _ _ _ U) as [I1 I2]. split; [eauto 8|].
      intros L. simpl. eapply unwind_last; eauto. }
    destruct a as [n| |i|]; cbn [act_step] in S.
    - left. eauto.
    - right. destruct (length (stack th)) as [|n] eqn:L.
      + destruct (drop_call F t th) as [[F1 th1]|] eqn:E; [|discriminate]. inversion S; subst.
        destruct (DC _ _ eq_refl) as (V & gs & f & c & p & k & C & A & ->).
        split; [reflexivity|]. split; [discriminate|]. split; [exact V|]. split; [eauto 12|].
        intros _. simpl. now apply length_zero_iff_nil.
      + destruct (drop_frame F t th n) as [[F1 th1]|] eqn:E; [|discriminate]. inversion S; subst.
        destruct (DF _ _ _ E) as (V & X & Y).
        split; [reflexivity|]. split; [discriminate|]. split; [exact V|]. split; [eauto|]. auto.
    - right. destruct i as [|i].
      + destruct (stack th); [discriminate|].
        destruct (drop_call F t th) as [[F1 th1]|] eqn:E; [|discriminate]. inversion S; subst.
        destruct (DC _ _ eq_refl) as (V & gs & f' & c & p & k & C & A & ->).
        split; [reflexivity|]. split; [discriminate|]. split; [exact V|]. split; [eauto 12|]. intros [].
      + destruct (Datatypes.S i <? length (stack th)); [|discriminate].
        destruct (drop_frame F t th i) as [[F1 th1]|] eqn:E; [|discriminate]. inversion S; subst.
        destruct (DF _ _ _ E) as (V & X & Y).
        split; [reflexivity|]. split; [discriminate|]. split; [exact V|]. split; [eauto|]. intros [].
    - right. destruct (finished th); [discriminate|].
      destruct (innermost F t (code_of th)) as [[F1 gs]|] eqn:E; [|discriminate]. inversion S; subst.
      split; [reflexivity|]. split; [discriminate|]. split; [intros g; eapply innermost_value; eauto|].
      split; [eauto|]. reflexivity.
  Qed.

  (** A task that asks for a lock it has itself stays where it is, unless it is
      disturbed. *)
  Definition stuck_at (s : sys) (t : tid) (f : fid) (c : call) (k : res nat nat -> prog) (x : fid) (w : bool)
             (l : guards) (st : list frame) : Prop :=
    owned s /\
    exists p, nth_error (tasks s) t = Some (mktask (Call f c p k) l st) /\
      asks f p = Some (x, w) /\ (blocks p = false \/ inside t = false).

  Lemma stuck_step s t f c k x w l st kd a s' ev :
    stuck_at s t f c k x w l st -> In (x, kd) (own_held l ++ own_stack st) ->
    kd = KW \/ (kd = KR /\ w = true) ->
    spares t a -> step inside builder s a = Some (s', ev) ->
    stuck_at s' t f c k x w l st /\ (fst a = t -> ev = []).
  Proof.
    intros (O & p & N & A & BL) I K SP S. unfold stuck_at. rewrite and_assoc.
    split; [eapply step_owned; eauto|].
    destruct (step_inv _ _ _ _ _ _ S) as (th & th' & N0 & T & E).
    destruct (Nat.eq_dec (fst a) t) as [E0|D].
    - subst t. rewrite N in N0. inversion N0; subst th. specialize (SP eq_refl).
      destruct a as [t [n| |i|]]; simpl in *; try contradiction.
      assert (FR : free (fields s x) w = false).
      { eapply owner_free; [exact O|exact N| |exact K]. unfold owns. apply in_or_app. right. exact I. }
      unfold tstep in T. simpl in T.
      assert (P : exists F1 p1, pstep (fields s) t (inside t) f p = Some (F1, p1) /\
                  th' = mktask (Call f c p1 k) l st /\ ev = []).
      { destruct p; simpl in A; try discriminate;
          (destruct (pstep (fields s) t (inside t) f _) as [[F1 p1]|] eqn:P; [|discriminate];
           inversion T; subst; eauto). }
      destruct P as (F1 & p1 & P & -> & ->).
      destruct (asks_step _ _ _ _ _ _ _ _ _ A FR BL P) as [A1 B1].
      split; [|auto]. exists p1. split; [|auto]. rewrite E. eapply nth_set_same; eauto.
    - split; [|congruence]. exists p. split; [|auto]. rewrite E, (nth_set_other _ _ _ _ D). exact N.
  Qed.

  (** The events of a step are by the task that makes it. *)
  Lemma other_events s a s1 e1 t g c0 r : step inside builder s a = Some (s1, e1) -> fst a <> t ->
    ~ In (TRet t g c0 r) e1.
  Proof.
    intros S Q J. destruct (step_inv _ _ _ _ _ _ S) as (th & th' & _ & T & _).
    destruct (act_inv _ _ _ _ _ _ _ T) as [(n & _ & T1)|(-> & _)]; [|destruct J].
    unfold tstep in T1.
    destruct (code_of th) as [[o|g0 c1 k]|g0 c1 p k|gs nx].
    + destruct (held th) as [|[]]; [destruct (stack th)|]; inversion T1; subst; simpl in J; intuition; discriminate.
    + destruct (through_guard c1).
      * destruct (take_guard g0 (held th)) as [[]|]; [|discriminate].
        destruct (enter_guard _ _); inversion T1; subst. destruct J.
      * destruct (enter c1); inversion T1; subst. destruct J.
    + destruct p; try (destruct (pstep _ _ _ _ _) as [[F1 p1]|] in T1; [|discriminate T1]);
        inversion T1; subst; simpl in J; intuition; try discriminate; inversion H; congruence.
    + destruct gs as [|[]]; [destruct nx as [[[] ]|]|]; inversion T1; subst; simpl in J; intuition;
        inversion H; congruence.
  Qed.

  Lemma stuck_run t f c k x w l st kd :
    In (x, kd) (own_held l ++ own_stack st) -> kd = KW \/ (kd = KR /\ w = true) ->
    forall acts s s' ev, stuck_at s t f c k x w l st -> Forall (spares t) acts ->
      run inside builder s acts = Some (s', ev) ->
      stuck_at s' t f c k x w l st /\ (forall g c0 r, ~ In (TRet t g c0 r) ev).
  Proof.
    intros I K. induction acts as [|a acts IH]; intros s s' ev ST SP R; simpl in R.
    - inversion R; subst. split; [exact ST|]. intros g c0 r [].
    - destruct (step inside builder s a) as [[s1 e1]|] eqn:S; [|discriminate].
      destruct (run inside builder s1 acts) as [[s2 e2]|] eqn:R2; [|discriminate]. inversion R; subst.
      inversion SP; subst.
      destruct (stuck_step _ _ _ _ _ _ _ _ _ _ _ _ _ ST I K H1 S) as [ST1 E1].
      destruct (IH _ _ _ ST1 H2 R2) as [ST2 E2]. split; [exact ST2|].
      intros g c0 r J. apply in_app_or in J. destruct J as [J|J]; [|eapply E2; eauto].
      destruct (Nat.eq_dec (fst a) t) as [Q|Q]; [rewrite (E1 Q) in J; destruct J|].
      eapply other_events; eauto.
  Qed.

  (** Events and a state property together, for the schedules of [SC]. *)
  Lemma run_ind_ev (SC : tid * act -> Prop) (P : sys -> Prop) (Q : tevent -> Prop) :
    (forall s a s' ev, SC a -> step inside builder s a = Some (s', ev) -> P s -> P s' /\ Forall Q ev) ->
    forall l s s' ev, Forall SC l -> run inside builder s l = Some (s', ev) -> P s -> P s' /\ Forall Q ev.
  Proof.
    intros H. induction l as [|a l IH]; simpl; intros s s' ev FS R PS.
    - inversion R; subst. auto.
    - destruct (step inside builder s a) as [[s1 e1]|] eqn:E; [|discriminate].
      destruct (run inside builder s1 l) as [[s2 e2]|] eqn:R2; [|discriminate].
      inversion R; subst. inversion FS; subst. destruct (H _ _ _ _ H2 E PS) as [P1 Q1].
      destruct (IH _ _ _ H3 R2 P1) as [P2 Q2]. split; [exact P2|]. apply Forall_app; auto.
  Qed.

  Lemma run_forall (SC : tid * act -> Prop) (T : tid -> task -> Prop) (Q : tevent -> Prop) (G : sys -> Prop) :
    (forall s t a th F' th' ev, SC (t, a) -> G s -> nth_error (tasks s) t = Some th ->
       act_step inside builder (fields s) t a th = Some (F', th', ev) -> T t th ->
       T t th' /\ Forall Q ev) ->
    (forall s a s' ev, SC a -> step inside builder s a = Some (s', ev) -> G s ->
       (forall t th, nth_error (tasks s) t = Some th -> T t th) -> G s') ->
    forall l s s' ev, Forall SC l -> run inside builder s l = Some (s', ev) -> G s ->
      (forall t th, nth_error (tasks s) t = Some th -> T t th) ->
      (G s' /\ (forall t th, nth_error (tasks s') t = Some th -> T t th)) /\ Forall Q ev.
  Proof.
    intros HT HG l s s' ev SC0 R G0 T0.
    apply (run_ind_ev SC (fun s => G s /\ (forall t th, nth_error (tasks s) t = Some th -> T t th)) Q)
      with (l := l) (s := s); auto.
    clear l s s' ev R G0 T0 SC0. intros s [t a] s' ev SC0 S [G0 T0].
    destruct (step_inv _ _ _ _ _ _ S) as (th & th' & N & TS & E). simpl in *.
    destruct (HT _ _ _ _ _ _ _ SC0 G0 N TS (T0 _ _ N)) as [T1 Q1].
    split; [|exact Q1]. split; [eapply HG; eauto|].
    intros u x. rewrite E. destruct (Nat.eq_dec t u) as [<-|D].
    - rewrite (nth_set_same _ _ _ _ N). intros H; inversion H; subst; exact T1.
    - rewrite (nth_set_other _ _ _ _ D). apply T0.
  Qed.

  (** A builder that must wait for its own field. *)
  Section Self.
    Variable f : fid.
    Hypothesis MT : forall n, must_await f (builder f n).

    Definition caught (c : code) : Prop :=
      match c with
      | User p => must_await f p
      | Call g _ p k => (exists w, asks g p = Some (f, w) /\ blocks p = false) \/ forall r, must_await f (k r)
      | Leave _ _ => False
      end.

    Fixpoint chain (above : Prop) (st : list frame) : Prop :=
      match st with
      | [] => True
      | fr :: st' => (fr_field fr = f -> above) /\ chain (forall r, must_await f (fr_cont fr r)) st'
      end.

    Definition self_ok (th : task) : Prop := chain (caught (code_of th)) (stack th).

    Definition not_back (e : tevent) : Prop :=
      match e with TEnd _ g _ => g <> f | _ => True end.

    Lemma chain_imp (P Q : Prop) st : (P -> Q) -> chain P st -> chain Q st.
    Proof. destruct st; simpl; tauto. Qed.

    Lemma self_tstep s t th n F' th' ev : owned s -> nth_error (tasks s) t = Some th ->
      tstep inside builder (fields s) t n th = Some (F', th', ev) -> self_ok th ->
      (self_ok th' /\ Forall not_back ev) /\
      (forall fr rest, fr_field fr = f -> (exists top, stack th = top ++ fr :: rest) ->
                       exists top, stack th' = top ++ fr :: rest).
    Proof.
      intros O N S CH. destruct th as [c l st].
      assert (FR : forall fr st' w, st = fr :: st' -> fr_field fr = f -> free (fields s f) w = false).
      { intros fr st' w -> E. eapply owner_free; [exact O|exact N| |left; reflexivity].
        unfold owns. apply in_or_app. right. apply in_or_app. right. simpl. left. now rewrite E. }
      unfold self_ok, tstep in *. simpl in *.
      assert (SAME : forall c' l', th' = mktask c' l' st -> Forall not_back ev ->
        (forall fr st', st = fr :: st' -> fr_field fr = f -> caught c -> caught c') ->
        (chain (caught (code_of th')) (stack th') /\ Forall not_back ev) /\
        (forall fr rest, fr_field fr = f -> (exists top, st = top ++ fr :: rest) ->
                       exists top, stack th' = top ++ fr :: rest)).
      { intros c' l' -> NB H. simpl. split; [split; [|exact NB]|auto].
        destruct st as [|fr st]; simpl in *; [auto|]. split; [|tauto].
        intros E. eapply H; eauto. tauto. }
      destruct c as [[o|g c k]|g c p k|gs nx].
      - destruct l as [|[g h] rest].
        + destruct st as [|fr st]; [discriminate|]. inversion S; subst; clear S. simpl in *.
          destruct CH as [CH1 CH2].
          assert (NE : fr_field fr <> f) by tauto.
          split.
          * split; [|constructor; [exact NE|constructor]].
            eapply chain_imp; [|exact CH2]. auto.
          * intros fr' rest E (top & T). destruct top as [|x top]; simpl in T; inversion T; subst.
            -- congruence.
            -- eauto.
        + inversion S; subst. eapply SAME; eauto.
      - destruct (through_guard c) eqn:TG.
        + destruct (take_guard g l) as [[h l']|]; [|discriminate].
          destruct (enter_guard h c) as [p|] eqn:EG; [|discriminate]. inversion S; subst.
          eapply SAME; eauto. intros _ _ _ _. simpl. intros [(-> & TL & _)|H]; [|auto].
          destruct c as [[]| | |]; discriminate.
        + destruct (enter c) as [p|] eqn:E; [|discriminate]. inversion S; subst.
          eapply SAME; eauto. intros _ _ _ _. simpl. intros [(-> & TL & BL)|H]; [|auto].
          left. destruct c as [[]| | |]; simpl in E, TL, BL; inversion E; subst; try discriminate;
            eexists; split; reflexivity.
      - assert (P : forall F1 p1, pstep (fields s) t (inside t) g p = Some (F1, p1) ->
                  Some (F1, mktask (Call g c p1 k) l st, @nil tevent) = Some (F', th', ev) ->
                  (chain (caught (code_of th')) (stack th') /\ Forall not_back ev) /\
                  (forall fr rest, fr_field fr = f -> (exists top, st = top ++ fr :: rest) ->
                                 exists top, stack th' = top ++ fr :: rest)).
        { intros F1 p1 E1 E2. inversion E2; subst. eapply SAME; eauto.
          intros fr st' E EF. simpl. intros [(w & A & BL)|H]; [|auto]. left. exists w.
          exact (asks_step _ _ _ _ _ _ _ _ _ A (FR _ _ w E EF) (or_introl BL) E1). }
        destruct p;
          try (destruct (pstep _ t (inside t) g _) as [[F1 p1]|] eqn:E1 in S; [|discriminate S];
               eapply P; [exact E1|exact S]).
        + inversion S; subst. eapply SAME; eauto; [repeat constructor|]. intros _ _ _ _. simpl.
          intros [(w & A & _)|H]; try discriminate. auto.
        + inversion S; subst. simpl in *. split.
          * split; [|repeat constructor]. split; [intros ->; apply MT|].
            eapply chain_imp; [|exact CH]. intros [(w & A & _)|H]; try discriminate. exact H.
          * intros fr rest EF (top & ->). exists (mkframe g c m k l :: top). reflexivity.
      - destruct gs as [|[g h] gs]; [destruct nx as [[[g c] k]|]|]; inversion S; subst;
          (eapply SAME; [reflexivity|repeat constructor|intros _ _ _ _ []]).
    Qed.

    Lemma self_act s t a th F' th' ev : builders_left_alone (t, a) -> owned s ->
      nth_error (tasks s) t = Some th ->
      act_step inside builder (fields s) t a th = Some (F', th', ev) -> self_ok th ->
      self_ok th' /\ Forall not_back ev.
    Proof.
      intros BA O N S K. destruct (act_inv _ _ _ _ _ _ _ S) as [(n & -> & T)|(-> & _ & _ & _ & E)].
      - eapply self_tstep; eauto.
      - split; [|constructor]. unfold self_ok. rewrite (E BA). exact I.
    Qed.

    Lemma self_run l s s' ev : Forall builders_left_alone l ->
      run inside builder s l = Some (s', ev) -> owned s ->
      (forall t th, nth_error (tasks s) t = Some th -> self_ok th) ->
      (owned s' /\ (forall t th, nth_error (tasks s') t = Some th -> self_ok th)) /\ Forall not_back ev.
    Proof.
      intros BA R O T.
      eapply (run_forall builders_left_alone (fun _ => self_ok) not_back owned); eauto.
      - intros. eapply self_act; eauto.
      - intros. eapply step_owned; eauto.
    Qed.

    Lemma self_start v0 ps : forall t th, nth_error (tasks (start v0 ps)) t = Some th -> self_ok th.
    Proof.
      intros t th N. apply nth_error_In in N. unfold start in N. simpl in N.
      apply in_map_iff in N. destruct N as (p & <- & _). exact Logic.I.
    Qed.

    (** A suspended call whose builder runs is never resumed, unless the task is
        disturbed. *)
    Lemma self_stays l s s' ev t th fr rest top : Forall builders_left_alone l -> Forall (spares t) l ->
      run inside builder s l = Some (s', ev) -> owned s ->
      (forall u x, nth_error (tasks s) u = Some x -> self_ok x) -> nth_error (tasks s) t = Some th ->
      fr_field fr = f -> stack th = top ++ fr :: rest ->
      exists th' top', nth_error (tasks s') t = Some th' /\ stack th' = top' ++ fr :: rest.
    Proof.
      revert s s' ev th top. induction l as [|a l IH]; simpl; intros s s' ev th top BA SP R O T N E ST.
      - inversion R; subst. eauto.
      - destruct (step inside builder s a) as [[s1 e1]|] eqn:S; [|discriminate].
        destruct (run inside builder s1 l) as [[s2 e2]|] eqn:R2; [|discriminate].
        inversion R; subst. inversion BA; subst. inversion SP; subst.
        destruct (step_inv _ _ _ _ _ _ S) as (th0 & th1 & N0 & TS & ET).
        assert (O1 : owned s1) by (eapply step_owned; eauto).
        destruct a as [u a]. simpl in *.
        destruct (self_act _ _ _ _ _ _ _ H1 O N0 TS (T _ _ N0)) as (S1 & _).
        assert (T1 : forall u x, nth_error (tasks s1) u = Some x -> self_ok x).
        { intros v x. rewrite ET. destruct (Nat.eq_dec u v) as [<-|D].
          - rewrite (nth_set_same _ _ _ _ N0). intros X; inversion X; subst; exact S1.
          - rewrite (nth_set_other _ _ _ _ D). apply T. }
        destruct (Nat.eq_dec u t) as [->|D].
        + rewrite N in N0. inversion N0; subst th0.
          specialize (H3 eq_refl). destruct a; simpl in H3; try contradiction.
          destruct (self_tstep _ _ _ _ _ _ _ O N TS (T _ _ N)) as (_ & K).
          destruct (K fr rest E (ex_intro _ top ST)) as (top1 & ST1).
          eapply IH; eauto. rewrite ET. eapply nth_set_same; eauto.
        + eapply IH; eauto. rewrite ET, (nth_set_other _ _ _ _ D). exact N.
    Qed.
  End Self.

  (** A set of fields whose builders need each other. *)
  Section Cycle.
    Variable C : fid -> Prop.
    Hypothesis MR : forall f n, C f -> must_read C (builder f n).
    Hypothesis NSb : forall f n, never_stores C (builder f n).

    Definition pre_build (p : pc) : bool :=
      match p with
      | I_Acq _ | I_Wait _ | I_Check _ | I_GetBld _ | I_Build _ => true
      | _ => false
      end.

    Definition calm (p : pc) : bool :=
      match p with
      | I_SetVal _ _ | I_SetFlag _ | I_Done _ | I_Fail _ _ | I_Unwind _
      | R_Map _ | M_Map _ | G_Set _ | S_Flag _ | S_Rep _ => false
      | _ => true
      end.

    Definition awaits (c : code) : Prop :=
      match c with
      | User p => must_read C p
      | Call g _ p k => (C g /\ pre_build p = true) \/ forall r, must_read C (k r)
      | Leave _ _ => False
      end.

    Fixpoint links (above : Prop) (st : list frame) : Prop :=
      match st with
      | [] => True
      | fr :: st' =>
          (C (fr_field fr) -> above) /\
          links (C (fr_field fr) \/ forall r, must_read C (fr_cont fr r)) st'
      end.

    Definition quiet (c : code) : Prop :=
      match c with
      | User p => never_stores C p
      | Call g c p k =>
          (C g -> calm p = true /\ (needs_value c -> pre_build p = true)) /\
          forall r, never_stores C (k r)
      | Leave _ (Some (_, _, k)) => forall r, never_stores C (k r)
      | Leave _ None => True
      end.

    Definition cyc_ok (th : task) : Prop :=
      quiet (code_of th) /\
      Forall (fun fr => forall r, never_stores C (fr_cont fr r)) (stack th) /\
      links (awaits (code_of th)) (stack th).

    Definition unset (s : sys) : Prop := forall f, C f -> value (fields s f) = None.

    (** No builder of the set ends, no call that needs a value of the set gets one. *)
    Definition hopeless (e : tevent) : Prop :=
      match e with
      | TEnd _ g _ => ~ C g
      | TRet _ g c r => C g -> needs_value c -> r = RCancelled
      | _ => True
      end.

    Lemma links_imp (P Q : Prop) st : (P -> Q) -> links P st -> links Q st.
    Proof. destruct st; simpl; tauto. Qed.

    Lemma release_value F t f h g : value (release F t f h g) = value (F g).
    Proof.
      destruct h; simpl; try reflexivity; unfold upd; destruct (Nat.eqb_spec g f); subst; reflexivity.
    Qed.

    Lemma request_value F t f w yes no F' p' g : request F t f w yes no = Some (F', p') ->
      value (F' g) = value (F g).
    Proof.
      unfold request, take. destruct (lq (F f)); [destruct (free (F f) w), w|]; intros E; inversion E; subst;
        unfold upd; destruct (Nat.eqb_spec g f); subst; reflexivity.
    Qed.

    Lemma served_value F t f w yes F' p' g : served F t f w yes = Some (F', p') ->
      value (F' g) = value (F g).
    Proof.
      unfold served, take. destruct (lq (F f)) as [|[u b] q]; [discriminate|].
      destruct (Nat.eqb u t && free (F f) w), w; intros E; inversion E; subst;
        unfold upd; destruct (Nat.eqb_spec g f); subst; reflexivity.
    Qed.

    Lemma pstep_calm F t ins f p F' p' : pstep F t ins f p = Some (F', p') -> value (F f) = None ->
      calm p = true -> calm p' = true.
    Proof.
      intros S V. destruct p; simpl; try discriminate; cbn [pstep] in S; rewrite ?V in S; step_cases S; auto.
    Qed.

    Lemma pstep_pre F t ins f p F' p' : pstep F t ins f p = Some (F', p') -> value (F f) = None ->
      pre_build p = true -> pre_build p' = true.
    Proof.
      intros S V. destruct p; simpl; try discriminate; cbn [pstep] in S; rewrite ?V in S; step_cases S; auto.
    Qed.

    Lemma pstep_unset F t ins f p F' p' g : pstep F t ins f p = Some (F', p') -> value (F g) = None ->
      (g = f -> calm p = true) -> value (F' g) = None.
    Proof.
      intros S V K. rewrite <- V. destruct p; simpl in S; try discriminate S; unfold blocking_read in S;
        try (eapply request_value; exact S); try (eapply served_value; exact S);
        try (destruct ins; [inversion S; reflexivity|eapply request_value; exact S]);
        cases_of S; try discriminate S; inversion S; subst; clear S;
        try apply (release_value F t _ HR); rewrite ?release_value; try reflexivity;
        unfold upd;
        match goal with |- context [Nat.eqb g ?x] => destruct (Nat.eqb_spec g x) end;
        try reflexivity; subst; simpl; first [reflexivity | symmetry; exact V | specialize (K eq_refl); discriminate].
    Qed.

    Lemma cyc_tstep F t n th F' th' ev :
      (forall f, C f -> value (F f) = None) ->
      tstep inside builder F t n th = Some (F', th', ev) -> cyc_ok th ->
      (cyc_ok th' /\ Forall hopeless ev) /\ (forall f, C f -> value (F' f) = None).
    Proof.
      intros U S (QC & NF & LK). destruct th as [c l st].
      unfold cyc_ok, tstep in *. simpl in *.
      assert (SAME : forall c' l', th' = mktask c' l' st -> Forall hopeless ev ->
        quiet c' -> (awaits c -> awaits c') -> (forall f, C f -> value (F' f) = None) ->
        ((quiet (code_of th') /\
          Forall (fun fr => forall r, never_stores C (fr_cont fr r)) (stack th') /\
          links (awaits (code_of th')) (stack th')) /\ Forall hopeless ev) /\
        (forall f, C f -> value (F' f) = None)).
      { intros c' l' -> HP Q A U'. simpl. repeat split; auto. eapply links_imp; eauto. }
      destruct c as [[o|g c k]|g c p k|gs nx].
      - destruct l as [|[g h] rest].
        + destruct st as [|fr st]; [discriminate|]. inversion S; subst; clear S. simpl in *.
          destruct LK as [LK1 LK2]. inversion NF; subst.
          assert (NE : ~ C (fr_field fr)) by tauto.
          split; [|exact U]. split; [|repeat constructor; exact NE].
          split; [split; [tauto|auto]|]. split; [auto|].
          eapply links_imp; [|exact LK2]. intros [H|H]; [tauto|auto].
        + inversion S; subst. eapply SAME; eauto. intros f Cf. rewrite release_value. auto.
      - destruct QC as [QC1 QC2]. destruct (through_guard c) eqn:TG.
        + destruct (take_guard g l) as [[h l']|]; [|discriminate].
          destruct (enter_guard h c) as [p|] eqn:EG; [|discriminate]. inversion S; subst.
          eapply SAME; eauto.
          * simpl. split; [|auto]. intros Cg. specialize (QC1 Cg).
            destruct h, c as [[]| | |]; simpl in EG, QC1; inversion EG; subst; try tauto; split; auto; intros [].
          * simpl. intros [[_ H]|H]; [|auto]. destruct c as [[]| | |]; simpl in *; try discriminate; tauto.
        + destruct (enter c) as [p|] eqn:E; [|discriminate]. inversion S; subst.
          eapply SAME; eauto.
          * simpl. split; [|auto]. intros _.
            destruct c as [[]| | |]; simpl in E; inversion E; subst; split; auto; intros [].
          * simpl. intros [[Cg H]|H]; [|auto]. left. split; [exact Cg|].
            destruct c as [[]| | |]; simpl in E, H; inversion E; subst; try tauto; reflexivity.
      - destruct QC as [QC1 QC2].
        assert (P : forall F1 p1, pstep F t (inside t) g p = Some (F1, p1) ->
                  Some (F1, mktask (Call g c p1 k) l st, @nil tevent) = Some (F', th', ev) ->
        ((quiet (code_of th') /\
          Forall (fun fr => forall r, never_stores C (fr_cont fr r)) (stack th') /\
          links (awaits (code_of th')) (stack th')) /\ Forall hopeless ev) /\
        (forall f, C f -> value (F' f) = None)).
        { intros F1 p1 E1 E2. inversion E2; subst. eapply SAME; eauto.
          - simpl. split; [|auto]. intros Cg. destruct (QC1 Cg) as [Q1 Q2]. split.
            + eapply pstep_calm; eauto.
            + intros NV. eapply pstep_pre; eauto.
          - simpl. intros [[Cg H]|H]; [left|auto]. split; [exact Cg|]. eapply pstep_pre; eauto.
          - intros f Cf. eapply pstep_unset; eauto. intros ->. now apply QC1. }
        destruct p;
          try (destruct (pstep F t (inside t) g _) as [[F1 p1]|] eqn:E1 in S; [|discriminate S];
               eapply P; [exact E1|exact S]).
        + inversion S; subst. eapply SAME; eauto.
          * constructor; [|constructor]. simpl. intros Cg NV. destruct (QC1 Cg) as [_ Q]. now specialize (Q NV).
          * simpl. apply QC2.
          * simpl. intros [[_ H]|H]; [discriminate|auto].
        + inversion S; subst. simpl in *. repeat split; auto.
          * eapply links_imp; [|exact LK]. intros [[H _]|H]; auto.
          * constructor; [exact I|constructor].
      - destruct gs as [|[g h] gs]; [destruct nx as [[[g c] k]|]|]; inversion S; subst.
        + eapply SAME; [reflexivity|constructor; [intros _ _; reflexivity|constructor]|apply QC|intros []|exact U].
        + eapply SAME; eauto; try exact I; intros [].
        + eapply SAME; eauto. intros f Cf. rewrite release_value. auto.
    Qed.

    Lemma cyc_act F t a th F' th' ev : builders_left_alone (t, a) ->
      (forall f, C f -> value (F f) = None) ->
      act_step inside builder F t a th = Some (F', th', ev) -> cyc_ok th ->
      (cyc_ok th' /\ Forall hopeless ev) /\ (forall f, C f -> value (F' f) = None).
    Proof.
      intros BA U S K. destruct (act_inv _ _ _ _ _ _ _ S) as [(n & -> & T)|(-> & _ & V & D & E)].
      - eapply cyc_tstep; eauto.
      - split; [|intros f Cf; rewrite V; auto]. split; [|constructor].
        destruct K as (K1 & K2 & _). specialize (E BA).
        destruct D as [(gs & f & c & p & k & EC & _ & ->)|[(gs & fr & st' & I1 & _ & ->)|(gs & ->)]];
          simpl in E; unfold cyc_ok; simpl; rewrite ?E.
        + rewrite EC in K1. destruct K1 as [_ K1]. repeat split; auto.
        + rewrite Forall_forall in K2. repeat split; auto.
        + repeat split; auto.
    Qed.

    Lemma cyc_run l s s' ev : Forall builders_left_alone l ->
      run inside builder s l = Some (s', ev) -> unset s ->
      (forall t th, nth_error (tasks s) t = Some th -> cyc_ok th) ->
      (unset s' /\ (forall t th, nth_error (tasks s') t = Some th -> cyc_ok th)) /\ Forall hopeless ev.
    Proof.
      intros BA R O T. eapply (run_forall builders_left_alone (fun _ => cyc_ok) hopeless unset); eauto.
      - intros s0 t a th F' th' ev0 B U N TS K. eapply cyc_act; eauto.
      - intros s0 [t a] s1 e1 B S U TA. destruct (step_inv _ _ _ _ _ _ S) as (th & th' & N & TS & E).
        destruct (cyc_act _ _ _ _ _ _ _ B U TS (TA _ _ N)) as [_ U']. exact U'.
    Qed.

    Lemma cyc_start v0 ps : (forall f, C f -> v0 f = None) -> Forall (never_stores C) ps ->
      unset (start v0 ps) /\ (forall t th, nth_error (tasks (start v0 ps)) t = Some th -> cyc_ok th).
    Proof.
      intros V P. split; [intros f Cf; simpl; auto|].
      intros t th N. apply nth_error_In in N. unfold start in N. simpl in N. rewrite Forall_forall in P.
      apply in_map_iff in N. destruct N as (p & <- & I). split; [apply P; exact I|].
      simpl. auto.
    Qed.
  End Cycle.

  (** The calls that are not async. *)
  Definition blocking_pc (ins : bool) (p : pc) : bool :=
    match p with
    | K_Acq | D_Acq | Q_Acq _ => true
    | Ret h r => match h, r with
                 | HNone, RPanic => ins
                 | HNone, RCancelled => false
                 | HNone, _ => negb ins
                 | _, _ => false
                 end
    | K_Wait | K_Val | K_Flag _ | K_Rel _ _ | D_Wait | D_Val | D_Rel _
    | Q_Wait _ | Q_Acq2 _ | Q_Wait2 _ | Q_Cmp _ | Q_Rel2 _ _ | Q_Rel _ => negb ins
    | _ => false
    end.

  Definition from_blocking (p : pc) : bool :=
    match p with
    | K_Acq | K_Wait | K_Val | K_Flag _ | K_Rel _ _ | D_Acq | D_Wait | D_Val | D_Rel _
    | Q_Acq _ | Q_Wait _ | Q_Acq2 _ | Q_Wait2 _ | Q_Cmp _ | Q_Rel2 _ _ | Q_Rel _ => true
    | _ => false
    end.

  Definition blocking_ok (t : tid) (th : task) : Prop :=
    match code_of th with
    | Call f c p k =>
        (blocking c = true -> blocking_pc (inside t) p = true) /\ (from_blocking p = true -> blocking c = true)
    | Leave _ (Some (_, c, _)) => blocking c = false
    | _ => True
    end /\
    Forall (fun fr => blocking (fr_call fr) = false) (stack th).

  Definition blocking_ret (e : tevent) : Prop :=
    match e with
    | TRet t f c r => blocking c = true ->
        r <> RCancelled /\ (r = RPanic <-> inside t = true)
    | _ => True
    end.

  Lemma blocking_pstep F t ins f p F' p' : pstep F t ins f p = Some (F', p') ->
    blocking_pc ins p = true -> blocking_pc ins p' = true.
  Proof.
    intros S. destruct p; cbn [blocking_pc]; try discriminate; destruct ins; try discriminate;
      step_cases S; auto.
  Qed.

  Lemma from_blocking_pstep F t ins f p F' p' : pstep F t ins f p = Some (F', p') ->
    from_blocking p' = true -> from_blocking p = true.
  Proof. intros S. destruct p; step_cases S; simpl; auto. Qed.

  Lemma blocking_back t h r : blocking_pc (inside t) (Ret h r) = true ->
    r <> RCancelled /\ (r = RPanic <-> inside t = true).
  Proof.
    simpl. destruct h; try discriminate.
    destruct r, (inside t); simpl; intros E; try discriminate; (split; [discriminate|]);
      split; intros X; try discriminate; auto.
  Qed.

  Lemma blocking_tstep F t n th F' th' ev :
    tstep inside builder F t n th = Some (F', th', ev) -> blocking_ok t th ->
    blocking_ok t th' /\ Forall blocking_ret ev.
  Proof.
    intros S (K1 & K2). destruct th as [c l st]. unfold blocking_ok, tstep in *. simpl in *.
    destruct c as [[o|g c k]|g c p k|gs nx].
    - destruct l as [|[g h] rest].
      + destruct st as [|fr st]; [discriminate|]. inversion S; subst; clear S. inversion K2; subst. simpl.
        repeat split; auto; [congruence|destruct o; discriminate].
      + inversion S; subst. simpl. auto.
    - destruct (through_guard c) eqn:TG.
      + destruct (take_guard g l) as [[h l']|]; [|discriminate].
        destruct (enter_guard h c) as [p|] eqn:EG; [|discriminate]. inversion S; subst. simpl.
        repeat split; auto; destruct h, c as [[]| | |]; simpl in *; inversion EG; subst; discriminate.
      + destruct (enter c) as [p|] eqn:E; [|discriminate]. inversion S; subst. simpl. repeat split; auto;
        destruct c as [[]| | |]; simpl in *; inversion E; subst; try discriminate; auto.
    - assert (P : forall F1 p1, pstep F t (inside t) g p = Some (F1, p1) ->
                  Some (F1, mktask (Call g c p1 k) l st, @nil tevent) = Some (F', th', ev) ->
                  blocking_ok t th' /\ Forall blocking_ret ev).
      { intros F1 p1 E1 E2. inversion E2; subst. split; [|constructor]. split; [|exact K2].
        simpl. destruct K1 as [K1 K3]. split; [intros BC; eapply blocking_pstep; eauto|].
        intros FB. apply K3. eapply from_blocking_pstep; eauto. }
      destruct p;
        try (destruct (pstep F t (inside t) g _) as [[F1 p1]|] eqn:E1 in S; [|discriminate S];
             eapply P; [exact E1|exact S]).
      + inversion S; subst. simpl. repeat split; auto. constructor; [|constructor].
        simpl. intros BC. eapply blocking_back; apply K1; exact BC.
      + inversion S; subst. simpl in *. repeat split; auto; [|repeat constructor].
        constructor; [|exact K2]. simpl. destruct K1 as [K1 _]. destruct (blocking c); [|reflexivity]. discriminate (K1 eq_refl).
    - destruct gs as [|[g h] gs]; [destruct nx as [[[g c] k]|]|]; inversion S; subst; simpl; repeat split; auto.
      constructor; [|constructor]. simpl. congruence.
  Qed.

  Lemma blocking_act F t a th F' th' ev :
    act_step inside builder F t a th = Some (F', th', ev) -> blocking_ok t th ->
    blocking_ok t th' /\ Forall blocking_ret ev.
  Proof.
    intros S K. destruct (act_inv _ _ _ _ _ _ _ S) as [(n & -> & T)|(-> & _ & _ & D & _)].
    - eapply blocking_tstep; eauto.
    - split; [|constructor]. destruct K as (K1 & K2).
      destruct D as [(gs & f & c & p & k & EC & A & ->)|[(gs & fr & st' & I1 & I2 & ->)|(gs & ->)]];
        unfold blocking_ok; simpl.
      + rewrite EC in K1. destruct K1 as [K1 _]. split; [|exact K2]. destruct (blocking c); [|reflexivity].
        specialize (K1 eq_refl). destruct p; simpl in K1, A; congruence.
      + rewrite Forall_forall in *. split; [apply K2, I1|]. intros x I. apply K2, I2, I.
      + auto.
  Qed.

  Lemma blocking_run l s s' ev : run inside builder s l = Some (s', ev) ->
    (forall t th, nth_error (tasks s) t = Some th -> blocking_ok t th) ->
    (forall t th, nth_error (tasks s') t = Some th -> blocking_ok t th) /\ Forall blocking_ret ev.
  Proof.
    intros R T.
    destruct (run_forall (fun _ => True) blocking_ok blocking_ret (fun _ => True)) with (l := l) (s := s) (s' := s') (ev := ev)
      as [[_ A] B]; auto.
    - intros s0 t a th F' th' ev0 _ _ N TS K. eapply blocking_act; eauto.
    - apply Forall_forall. auto.
  Qed.

  Lemma blocking_start v0 ps t th : nth_error (tasks (start v0 ps)) t = Some th -> blocking_ok t th.
  Proof.
    intros N. apply nth_error_In in N. unfold start in N. simpl in N.
    apply in_map_iff in N. destruct N as (p & <- & _). split; simpl; auto.
  Qed.

  (** Inside the runtime such a call leaves all fields alone. *)
  Lemma blocking_quiet F t n th F' th' ev f c p k : code_of th = Call f c p k -> blocking c = true ->
    inside t = true -> blocking_ok t th -> tstep inside builder F t n th = Some (F', th', ev) -> F' = F.
  Proof.
    intros E B I (K & _) S. rewrite E in K. destruct K as [K _]. specialize (K B). unfold tstep in S. rewrite E in S.
    rewrite I in *. destruct p; simpl in K; try discriminate; cbn [pstep] in S; unfold blocking_read in S;
      inversion S; reflexivity.
  Qed.

  (** A task inside the runtime that cannot go on is at an [.await]: it can be
      aborted. *)
  Lemma waiting_abort F t th n : inside t = true -> blocking_ok t th -> finished th = false ->
    tstep inside builder F t n th = None ->
    exists r, act_step inside builder F t Abort th = Some r.
  Proof.
    intros I (K & _) NF S. cbn [act_step]. rewrite NF.
    destruct th as [c l st]. unfold tstep in S. cbn [code_of held stack] in *.
    destruct c as [p|f c p k|gs nx].
    - simpl. eexists; reflexivity.
    - assert (A : at_await p <> None).
      { destruct K as [K1 K2]. destruct p; simpl; try discriminate;
          try (specialize (K1 (K2 eq_refl)); simpl in K1; rewrite I in K1; discriminate);
          simpl in S; unfold blocking_read in S; rewrite ?I in S;
          try discriminate S;
          try (destruct (value (F f)); discriminate S);
          try (destruct m; discriminate S);
          match type of S with context [request ?a ?b ?d ?e ?y ?x] =>
            destruct (request_some a b d e y x) as [[F1 p1] E]; rewrite E in S; discriminate S
          end. }
      simpl. destruct (at_await p); [|congruence]. eexists; reflexivity.
    - destruct gs as [|[f h] gs]; [destruct nx as [[[f c] k]|]|]; discriminate S.
  Qed.

  (** A task that asks for a field whose lock it has itself. *)
  Lemma own_lock s t th f c k kd : owned s -> nth_error (tasks s) t = Some th ->
    code_of th = User (PCall f c k) -> takes_lock c = true -> blocking c = false \/ inside t = false ->
    In (f, kd) (own_held (held th) ++ own_stack (stack th)) ->
    kd = KW \/ (kd = KR /\ shares_lock c = false) ->
    forall acts s' ev, Forall (spares t) acts -> run inside builder s acts = Some (s', ev) ->
      (forall g c0 r, ~ In (TRet t g c0 r) ev) /\
      exists th', nth_error (tasks s') t = Some th' /\ stack th' = stack th /\ held th' = held th /\
        (code_of th' = User (PCall f c k) \/ exists p w, code_of th' = Call f c p k /\ asks f p = Some (f, w)).
  Proof.
    intros O N C TL BL I K acts. revert s O N. induction acts as [|a acts IH]; intros s O N s' ev SP R; simpl in R.
    { inversion R; subst. split; [intros g c0 r []|]. exists th. auto. }
    destruct (step inside builder s a) as [[s1 e1]|] eqn:S; [|discriminate].
    destruct (run inside builder s1 acts) as [[s2 e2]|] eqn:R2; [|discriminate]. inversion R; subst.
    inversion SP; subst.
    destruct (step_inv _ _ _ _ _ _ S) as (th0 & th' & N0 & T & E).
    assert (O1 : owned s1) by (eapply step_owned; eauto).
    destruct (Nat.eq_dec (fst a) t) as [<-|D].
    - rewrite N in N0. inversion N0; subst th0. specialize (H1 eq_refl).
      destruct a as [t [n| |i|]]; simpl in *; try contradiction.
      unfold tstep in T. rewrite C in T.
      assert (TG : through_guard c = false) by (destruct c as [[]| | |]; simpl in *; auto; discriminate).
      rewrite TG in T. destruct (enter c) as [p|] eqn:EP; [|discriminate]. inversion T; subst; clear T.
      assert (A : asks f p = Some (f, negb (shares_lock c)) /\ (blocks p = false \/ inside t = false)).
      { destruct c as [[]| | |]; simpl in *; inversion EP; subst; try discriminate; simpl; auto;
          destruct BL as [BL|BL]; try discriminate; auto. }
      destruct A as [A AB].
      assert (ST : stuck_at s1 t f c k f (negb (shares_lock c)) (held th) (stack th)).
      { split; [exact O1|]. exists p. split; [|auto]. rewrite E. eapply nth_set_same; eauto. }
      assert (K' : kd = KW \/ (kd = KR /\ negb (shares_lock c) = true)).
      { destruct K as [K|[K1 K2]]; [auto|right; rewrite K2; auto]. }
      destruct (stuck_run _ _ _ _ _ _ _ _ _ I K' _ _ _ _ ST H2 R2) as [(_ & p' & N' & A' & _) NR].
      split; [exact NR|]. eexists. split; [exact N'|]. simpl. repeat split. right. eauto.
    - assert (N1 : nth_error (tasks s1) t = Some th) by (rewrite E, (nth_set_other _ _ _ _ D); exact N).
      destruct (IH _ O1 N1 _ _ H2 R2) as [NR X]. split; [|exact X].
      intros g c0 r J. apply in_app_or in J. destruct J as [J|J]; [|eapply NR; eauto].
      eapply other_events; eauto.
  Qed.

  (** Tasks that only share never wait. *)
  Definition share_pc (p : pc) : bool :=
    match p with
    | Ret h _ => match h with HNone | HR => true | _ => false end
    | L_Load | K_Acq | K_Val | K_Flag _ | K_Rel _ _ | D_Acq | D_Val | D_Rel _
    | Q_Acq _ | Q_Acq2 _ | Q_Cmp _ | Q_Rel2 _ _ | Q_Rel _ | LR_Acq | LR_Map => true
    | G_Get h | G_Drop h => match h with HR => true | _ => false end
    | _ => false
    end.

  Definition all_shared (l : guards) : Prop := forall f h, In (f, h) l -> h = HR.

  Definition shares (th : task) : Prop :=
    stack th = [] /\ all_shared (held th) /\
    match code_of th with
    | User p => only_shares p
    | Call f c p k => share_pc p = true /\ forall r, only_shares (k r)
    | Leave gs nx => all_shared gs /\
        match nx with Some (_, _, k) => forall r, only_shares (k r) | None => True end
    end.

  Definition quiet_locks (F : cells) : Prop := forall f, lw (F f) = None /\ lq (F f) = [].

  Lemma take_guard_in f l h l' : take_guard f l = Some (h, l') ->
    In (f, h) l /\ (forall x, In x l' -> In x l).
  Proof.
    revert h l'. induction l as [|[g x] l IH]; simpl; intros h l' E; [discriminate|].
    destruct (Nat.eqb_spec g f).
    - inversion E; subst. auto.
    - destruct (take_guard f l) as [[y l1]|]; [|discriminate]. inversion E; subst.
      destruct (IH _ _ eq_refl) as [I1 I2]. split; [auto|]. intros z [->|I]; simpl; auto.
  Qed.

  Lemma release_share F t f : quiet_locks F -> quiet_locks (release F t f HR).
  Proof.
    intros H g. simpl. unfold upd. destruct (Nat.eqb g f); [simpl|]; apply H.
  Qed.

  Lemma request_share F t f yes no : quiet_locks F ->
    exists F', request F t f false yes no = Some (F', yes) /\ quiet_locks F'.
  Proof.
    intros H. destruct (H f) as [W Q]. unfold request, free, take. rewrite W, Q.
    eexists. split; [reflexivity|]. intros g. unfold upd. destruct (Nat.eqb g f); [simpl; auto|apply H].
  Qed.

  Lemma share_pstep F t ins f p : quiet_locks F -> share_pc p = true -> (forall h r, p <> Ret h r) ->
    exists F' p', pstep F t ins f p = Some (F', p') /\ quiet_locks F' /\ share_pc p' = true.
  Proof.
    intros Q SP NR.
    assert (RQ : forall g yes no, share_pc yes = true ->
              exists F' p', request F t g false yes no = Some (F', p') /\ quiet_locks F' /\ share_pc p' = true).
    { intros g yes no Y. destruct (request_share F t g yes no Q) as (F' & E & Q'). eauto 6. }
    assert (RL : forall g, quiet_locks (upd F g (set_lock (F g) (lw (F g)) (drop_one t (lr (F g))) (lq (F g))))).
    { intros g. apply (release_share F t g Q). }
    destruct p; simpl in SP; try discriminate; try (now destruct (NR h r)); cbn [pstep]; unfold blocking_read;
      try (destruct ins; [eexists _, _; split; [reflexivity|split; [exact Q|reflexivity]]|apply RQ; reflexivity]);
      try (apply RQ; reflexivity);
      try (eexists _, _; split; [reflexivity|split; [exact Q|reflexivity]]);
      try (eexists _, _; split; [reflexivity|split; [apply RL|reflexivity]]).
    - destruct (value (F f)); eexists _, _; (split; [reflexivity|split; [first [exact Q|apply RL]|reflexivity]]).
    - destruct h; try discriminate.
      destruct (value (F f)); eexists _, _; (split; [reflexivity|split; [exact Q|reflexivity]]).
    - destruct h; try discriminate.
      eexists _, _; (split; [reflexivity|split; [apply RL|reflexivity]]).
  Qed.

  Lemma share_tstep F t n th F' th' ev : quiet_locks F ->
    tstep inside builder F t n th = Some (F', th', ev) -> shares th -> shares th' /\ quiet_locks F'.
  Proof.
    intros U S (ST & HE & CO). destruct th as [c l st]. simpl in *. subst st.
    unfold tstep in S. simpl in S. destruct c as [[o|f c k]|f c p k|gs nx].
    - destruct l as [|[f h] rest]; [discriminate|].
      assert (h = HR) by (apply (HE f); left; reflexivity). subst h.
      inversion S; subst; clear S. split; [|now apply release_share].
      split; [reflexivity|]. split; [|exact I]. intros g h' IN. apply (HE g). right. exact IN.
    - destruct CO as [C1 C2]. destruct (through_guard c) eqn:TG.
      + destruct (take_guard f l) as [[h l']|] eqn:TK; [|discriminate].
        destruct (take_guard_in _ _ _ _ TK) as [I1 I2].
        assert (h = HR) by (apply (HE f); exact I1). subst h.
        destruct (enter_guard HR c) as [p|] eqn:E; [|discriminate]. inversion S; subst.
        split; [|exact U]. split; [reflexivity|]. split; [intros g h' IN; apply (HE g); auto|].
        split; [|exact C2]. destruct c as [[]| | |]; simpl in E; inversion E; subst; reflexivity.
      + destruct (enter c) as [p|] eqn:E; [|discriminate]. inversion S; subst.
        split; [|exact U]. split; [reflexivity|]. split; [exact HE|].
        split; [|exact C2]. destruct c as [[]| | |]; simpl in E, C1; inversion E; subst; tauto.
    - destruct CO as [C1 C2].
      assert (D : (exists h r, p = Ret h r) \/ (forall h r, p <> Ret h r))
        by (destruct p; try (right; discriminate); left; eauto).
      destruct D as [(h & r & ->)|NR].
      + inversion S; subst. split; [|exact U]. split; [reflexivity|].
        split; [|apply C2]. simpl. destruct h; try discriminate; simpl.
        * exact HE.
        * intros g h' [E|IN]; [inversion E; reflexivity|apply (HE g h' IN)].
      + destruct (share_pstep F t (inside t) f p U C1 NR) as (F1 & p1 & E1 & Q1 & SP1).
        assert (X : F1 = F' /\ th' = mktask (Call f c p1 k) l []).
        { destruct p; simpl in C1; try discriminate; try (now destruct (NR h r)); rewrite E1 in S; inversion S; auto. }
        destruct X as [<- ->]. split; [|exact Q1]. split; [reflexivity|]. split; [exact HE|]. split; auto.
    - destruct CO as [C1 C2]. destruct gs as [|[f h] gs]; [destruct nx as [[[f c] k]|]|]; inversion S; subst.
      + split; [|exact U]. repeat split; auto. apply C2.
      + split; [|exact U]. repeat split; auto.
      + assert (h = HR) by (apply (C1 f); left; reflexivity). subst h. split; [|now apply release_share].
        split; [reflexivity|]. split; [exact HE|]. split; [|exact C2].
        intros g h' IN. apply (C1 g). right. exact IN.
  Qed.

  Lemma innermost_share F t c F' gs : quiet_locks F ->
    match c with Call _ _ p _ => share_pc p = true | _ => True end ->
    innermost F t c = Some (F', gs) -> quiet_locks F' /\ gs = [].
  Proof.
    intros Q SP. destruct c as [p|f c p k|gs0 nx]; simpl; try discriminate;
      [intros E; inversion E; subst; auto|].
    destruct (at_await p) as [h|] eqn:A; [|discriminate]. intros E. inversion E; subst.
    split.
    - intros g. unfold upd. destruct (Nat.eqb_spec g f); [subst; simpl|apply Q].
      destruct (Q f) as [W L]. rewrite L. auto.
    - destruct p; simpl in SP, A; try discriminate; inversion A; reflexivity.
  Qed.

  Lemma share_act F t a th F' th' ev : quiet_locks F ->
    act_step inside builder F t a th = Some (F', th', ev) -> shares th -> shares th' /\ quiet_locks F'.
  Proof.
    intros U S SH. pose proof SH as (ST & HE & CO).
    assert (IN : forall F1 gs, innermost F t (code_of th) = Some (F1, gs) -> quiet_locks F1 /\ gs = []).
    { intros F1 gs E. eapply innermost_share; [exact U| |exact E].
      destruct (code_of th); auto. apply CO. }
    assert (DC : forall F1 th1, drop_call F t th = Some (F1, th1) -> shares th1 /\ quiet_locks F1).
    { intros F1 th1 E. unfold drop_call in E. destruct (code_of th) as [p|f c p k|gs nx]; try discriminate.
      destruct (innermost F t (Call f c p k)) as [[F2 gs]|] eqn:I; [|discriminate]. inversion E; subst.
      destruct (IN _ _ eq_refl) as [Q ->]. split; [|exact Q]. split; [exact ST|]. split; [exact HE|].
      split; [intros ff hh []|apply CO]. }
    destruct a as [n| |i|]; cbn [act_step] in S.
    - eapply share_tstep; eauto.
    - rewrite ST in S. simpl in S.
      destruct (drop_call F t th) as [[F1 th1]|] eqn:E; [|discriminate]. inversion S; subst. now apply DC.
    - rewrite ST in S. destruct i; simpl in S; discriminate.
    - destruct (finished th); [discriminate|].
      destruct (innermost F t (code_of th)) as [[F1 gs]|] eqn:E; [|discriminate]. inversion S; subst.
      destruct (IN _ _ eq_refl) as [Q ->]. split; [|exact Q]. rewrite ST. simpl. rewrite app_nil_r.
      split; [reflexivity|]. split; [intros ff hh []|]. split; [exact HE|exact I].
  Qed.

  Lemma share_run l s s' ev : run inside builder s l = Some (s', ev) -> quiet_locks (fields s) ->
    (forall t th, nth_error (tasks s) t = Some th -> shares th) ->
    quiet_locks (fields s') /\ (forall t th, nth_error (tasks s') t = Some th -> shares th).
  Proof.
    intros R U T.
    destruct (run_forall (fun _ => True) (fun _ => shares) (fun _ => True) (fun s => quiet_locks (fields s)))
      with (l := l) (s := s) (s' := s') (ev := ev) as [A _]; auto.
    - intros s0 t a th F' th' ev0 _ U0 N TS K. split; [eapply share_act; eauto|]. apply Forall_forall. auto.
    - intros s0 a s1 e1 _ S U0 TA. destruct (step_inv _ _ _ _ _ _ S) as (th & th' & N & TS & E).
      exact (proj2 (share_act _ _ _ _ _ _ _ U0 TS (TA _ _ N))).
    - apply Forall_forall. auto.
  Qed.

  Lemma share_start v0 ps : Forall only_shares ps ->
    quiet_locks (fields (start v0 ps)) /\
    (forall t th, nth_error (tasks (start v0 ps)) t = Some th -> shares th).
  Proof.
    intros P. split; [intros f; simpl; auto|]. intros t th N. apply nth_error_In in N.
    unfold start in N. simpl in N. apply in_map_iff in N. destruct N as (p & <- & I).
    rewrite Forall_forall in P. split; [reflexivity|]. split; [intros f h []|]. apply P. exact I.
  Qed.

  Lemma share_moves F t n th f c p k : quiet_locks F -> shares th -> code_of th = Call f c p k ->
    exists r, tstep inside builder F t n th = Some r.
  Proof.
    intros U (_ & _ & CO) E. rewrite E in CO. destruct CO as [C1 _]. unfold tstep. rewrite E.
    assert (D : (exists h r, p = Ret h r) \/ (forall h r, p <> Ret h r))
      by (destruct p; try (right; discriminate); left; eauto).
    destruct D as [(h & r & ->)|NR]; [eexists; reflexivity|].
    destruct (share_pstep F t (inside t) f p U C1 NR) as (F1 & p1 & E1 & _ & _).
    destruct p; simpl in C1; try discriminate; try (now destruct (NR h r)); rewrite E1; eexists; reflexivity.
  Qed.
End Trap.
