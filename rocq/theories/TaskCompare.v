(** Proof support for C68: comparing two async fields looks at both at one moment.  No
    model here. *)
From Coq Require Import List Bool Arith Lia.
From Verif Require Import ProxyTypes MultiSpec TaskSpec RegisterSpec RegisterFacts TaskModel TaskStory TaskOwn TaskClean
  TaskRegister.
Import ListNotations.

Section Compare.
  Variable inside : tid -> bool.
  Variable builder : fid -> nat -> prog.
  Variable f : fid.
  Variable s0 : sys.

  (** A run with its story, grown at the end. *)
  Inductive seen : list (tid * act) -> sys -> list lnote -> Prop :=
  | seen_start : seen [] s0 []
  | seen_step l s st a s' ev th :
      seen l s st -> step inside builder s a = Some (s', ev) -> nth_error (tasks s) (fst a) = Some th ->
      seen (l ++ [a]) s' (st ++ note_of f (fst a) (snd a) th ev).

  Lemma seen_more l2 : forall l1 s st s' ev, seen l1 s st -> run inside builder s l2 = Some (s', ev) ->
    seen (l1 ++ l2) s' (st ++ lock_story inside builder f s l2).
  Proof.
    induction l2 as [|a l2 IH]; intros l1 s st s' ev H R; cbn in R.
    - injection R as <- _. cbn. rewrite !app_nil_r. auto.
    - destruct (step inside builder s a) as [[s1 e1]|] eqn:S1; [|discriminate].
      destruct (run inside builder s1 l2) as [[s2 e2]|] eqn:R1; [|discriminate]. injection R as <- _.
      destruct (step_inv _ _ _ _ _ _ S1) as (th & th' & N & TS & E).
      pose proof (IH _ _ _ _ _ (seen_step _ _ _ _ _ _ _ H S1 N) R1) as H'.
      cbn [lock_story]. rewrite N, S1. unfold note_of in H'. rewrite <- !app_assoc in H'. exact H'.
  Qed.

  Lemma seen_run l s st : seen l s st -> exists ev, run inside builder s0 l = Some (s, ev).
  Proof.
    induction 1 as [|l s st a s' ev th H [e IH] S1 N]; [eexists; reflexivity|].
    eexists. eapply run_app; [exact IH|]. cbn. rewrite S1. reflexivity.
  Qed.

  Lemma seen_unique l s st : seen l s st -> forall s' st', seen l s' st' -> s' = s /\ st' = st.
  Proof.
    induction 1 as [|l s st a s' ev th H IH S1 N]; intros s'' st' H'.
    - inversion H'; subst; auto. destruct l; discriminate.
    - inversion H' as [E|l2 s2 st2 a2 s2' ev2 th2 H2 S2 N2 E]; subst; [destruct l; discriminate|].
      apply app_inj_tail in E. destruct E as [-> ->]. destruct (IH _ _ H2) as [-> ->].
      rewrite S1 in S2. injection S2 as <- <-. rewrite N in N2. injection N2 as <-. auto.
  Qed.

  Lemma seen_story l s st : seen l s st -> st = lock_story inside builder f s0 l.
  Proof.
    intros H. destruct (seen_run _ _ _ H) as [ev R].
    pose proof (seen_more _ _ _ _ _ _ seen_start R) as H'. now destruct (seen_unique _ _ _ H _ _ H').
  Qed.

  (** At some moment since [t] made the call, the comparison was right. *)
  Definition past (t : tid) (g : fid) (b : bool) (l : list (tid * act)) (st : list lnote) : Prop :=
    exists l1 l2 s1 st1 rest, l = l1 ++ l2 /\ seen l1 s1 st1 /\ st = st1 ++ rest /\
      Forall (fun x => who x <> t) rest /\ busy_with t (EqWith g) st1 /\
      (b = true <-> value (fields s1 f) = value (fields s1 g)).

  Definition not_eq (c : call) : Prop := forall g, c <> EqWith g.

  Definition cmp_pc (t : tid) (c : call) (g0 : fid) (p : pc) (l : list (tid * act)) (st : list lnote) : Prop :=
    forall g, c = EqWith g ->
      (g0 = f -> busy_with t c st) /\
      match p with
      | Q_Acq g' => g' = g
      | Q_Wait g' | Q_Acq2 g' | Q_Wait2 g' | Q_Cmp g' => g' = g /\ inside t = false
      | Q_Rel2 g' b => g' = g /\ inside t = false /\ (g0 = f -> past t g b l st)
      | Q_Rel b => inside t = false /\ (g0 = f -> past t g b l st)
      | Ret h r => if inside t then r = RPanic else exists b, r = RBool b /\ (g0 = f -> past t g b l st)
      | _ => False
      end.

  Definition cmp_ok (l : list (tid * act)) (st : list lnote) (t : tid) (th : task) : Prop :=
    Forall (fun fr => not_eq (fr_call fr)) (stack th) /\
    match code_of th with
    | User _ => True
    | Call g0 c p _ => cmp_pc t c g0 p l st
    | Leave _ (Some (_, c, _)) => not_eq c
    | Leave _ None => True
    end.

  Lemma past_more t g b l st l' new : past t g b l st -> Forall (fun x => who x <> t) new ->
    past t g b (l ++ l') (st ++ new).
  Proof.
    intros (l1 & l2 & s1 & st1 & rest & -> & H & -> & FR & BU & V) N.
    exists l1, (l2 ++ l'), s1, st1, (rest ++ new). rewrite !app_assoc. repeat split; auto; try apply V.
    apply Forall_app; auto.
  Qed.

  Lemma cmp_pc_more t c g0 p l st l' new : cmp_pc t c g0 p l st -> Forall (fun x => who x <> t) new ->
    cmp_pc t c g0 p (l ++ l') (st ++ new).
  Proof.
    intros H N g E. destruct (H g E) as [B P]. split; [intros; apply busy_more; auto|].
    destruct p; auto.
    - destruct (inside t); auto. destruct P as (b & -> & P). exists b. split; auto using past_more.
    - destruct P as (-> & I & P). repeat split; auto using past_more.
    - destruct P as (I & P). split; auto using past_more.
  Qed.

  Lemma same_value_spec a b : same_value a b = true <-> a = b.
  Proof.
    destruct a as [x|], b as [y|]; cbn; split; try discriminate; auto.
    - intros E. apply Nat.eqb_eq in E. congruence.
    - intros E. injection E as ->. apply Nat.eqb_refl.
  Qed.

  Lemma pstep_cmp t c g0 F p F' p' l s st l' :
    fields s = F -> seen l s st -> pstep F t (inside t) g0 p = Some (F', p') ->
    cmp_pc t c g0 p l st -> cmp_pc t c g0 p' (l ++ l') (st ++ []).
  Proof.
    intros EF SN H P g E. destruct (P g E) as [B Q]. rewrite app_nil_r. split; auto.
    destruct p; try contradiction; cbn in H.
    - discriminate H.
    - subst g1. unfold blocking_read in H. destruct (inside t) eqn:INS.
      + injection H as _ <-. reflexivity.
      + apply request_same in H. destruct H as [_ [-> | ->]]; auto.
    - destruct Q as [-> INS]. apply served_same in H. destruct H as [_ ->]. auto.
    - destruct Q as [-> INS]. apply request_same in H. destruct H as [_ [-> | ->]]; auto.
    - destruct Q as [-> INS]. apply served_same in H. destruct H as [_ ->]. auto.
    - destruct Q as [-> INS]. injection H as _ <-. split; auto. split; auto. intros ->.
      exists l, l', s, st, []. rewrite app_nil_r. subst c. repeat split; auto; rewrite EF; apply same_value_spec.
    - destruct Q as (-> & INS & Q). injection H as _ <-. split; auto. intros E0. rewrite <- (app_nil_r st). apply past_more; auto.
    - destruct Q as (INS & Q). injection H as _ <-. rewrite INS. exists b. split; auto.
      intros E0. rewrite <- (app_nil_r st). apply past_more; auto.
  Qed.

  Lemma note_who t a th F F' th' ev : act_step inside builder F t a th = Some (F', th', ev) ->
    Forall (fun x => who x = t) (note_of f t a th ev) /\
    (note_of f t a th ev = [] \/ exists x, note_of f t a th ev = [x]).
  Proof.
    unfold note_of, lock_call. intros H.
    assert (EV : ev = [] \/ (exists g o, ev = [TEnd t g o]) \/ (exists g, ev = [TStart t g]) \/
              (exists n, a = Go n) /\ (forall p, code_of th <> User p) /\ exists g c r, ev = [TRet t g c r]).
    { assert (DD : forall x, match x with Some (F1, th1) => Some (F1, th1, @nil tevent) | None => None end =
                Some (F', th', ev) -> ev = []).
      { intros [[F1 th1]|] K; [|discriminate]. now injection K as _ _ <-. }
      destruct a as [n| |[|i]|]; cbn [act_step] in H; try (left; apply (DD _ H); fail).
      - unfold tstep in H. destruct (code_of th) as [[o|g c k]|g c p k|gs nx].
        + destruct (held th) as [|[g h] rest]; [destruct (stack th); [discriminate|]|]; injection H as _ _ <-; eauto.
        + left. destruct (through_guard c).
          * destruct (take_guard g (held th)) as [[hh l]|]; [|discriminate].
            destruct (enter_guard hh c); [|discriminate]. now injection H as _ _ <-.
          * destruct (enter c); [|discriminate]. now injection H as _ _ <-.
        + destruct p;
            try (destruct (pstep F t (inside t) g _) as [[F1 p1]|]; [|discriminate H]; injection H as _ _ <-; auto; fail);
            injection H as _ _ <-; eauto 10.
          right. right. right. split; eauto. split; [discriminate|eauto].
        + destruct gs as [|[g h] gs]; [destruct nx as [[[g c] k]|]|]; injection H as _ _ <-; auto.
          right. right. right. split; eauto. split; [discriminate|eauto].
      - left. destruct (stack th); [discriminate|]. apply (DD _ H).
      - left. destruct (S i <? length (stack th)); [|discriminate]. apply (DD _ H).
      - left. destruct (finished th); [discriminate|]. destruct (innermost F t (code_of th)) as [[F1 gs]|]; [|discriminate].
        now injection H as _ _ <-. }
    assert (CL : forall x, x = [] \/ (exists c, x = [LCall t c]) ->
              Forall (fun y => who y = t) (x ++ []) /\ (x ++ [] = [] \/ exists y, x ++ [] = [y])).
    { intros x [-> |[c ->]]; cbn; eauto. }
    assert (LC : lock_call f t a th = [] \/ (exists c, lock_call f t a th = [LCall t c])).
    { unfold lock_call. destruct a; auto. destruct (code_of th) as [[o|g c k]| |]; auto.
      destruct (Nat.eqb g f); eauto. }
    fold (lock_call f t a th). 
    destruct EV as [-> |[(g & o & ->)|[(g & ->)|((n & ->) & NU & g & c & r & ->)]]]; auto.
    unfold lock_call. destruct (code_of th) as [p| |]; [now destruct (NU p)| |];
      cbn; destruct (Nat.eqb g f); cbn; eauto.
  Qed.

  Lemma unwind_cmp n : forall st gs fr st', unwind n st = Some (gs, fr, st') ->
    Forall (fun fr => not_eq (fr_call fr)) st ->
    not_eq (fr_call fr) /\ Forall (fun fr => not_eq (fr_call fr)) st'.
  Proof.
    induction n as [|n IH]; intros [|fr0 st] gs fr st' H K; try discriminate; cbn in H; inversion K; subst.
    - injection H as <- <- <-. auto.
    - destruct (unwind n st) as [[[gs0 fr1] st1]|] eqn:E; [|discriminate]. injection H as <- <- <-. eauto.
  Qed.

  Lemma act_cmp F t a th F' th' ev l l' s st :
    fields s = F -> seen l s st ->
    act_step inside builder F t a th = Some (F', th', ev) -> cmp_ok l st t th ->
    cmp_ok (l ++ l') (st ++ note_of f t a th ev) t th'.
  Proof.
    intros EF SN H (ST & CO).
    assert (DC : forall F1 th1, drop_call F t th = Some (F1, th1) -> forall m n, cmp_ok m n t th1).
    { intros F1 th1. unfold drop_call. destruct (code_of th) as [|g c p k|] eqn:C; try discriminate.
      destruct (innermost _ _ _) as [[F2 gs]|] eqn:E; [|discriminate]. intros K m n; injection K as _ <-.
      split; auto. cbn. intros g0 EQ. destruct (CO g0 EQ) as [_ Q]. cbn in E.
      destruct p; try contradiction; discriminate E. }
    assert (DF : forall i F1 th1, drop_frame F t th i = Some (F1, th1) -> forall m n, cmp_ok m n t th1).
    { intros i F1 th1. unfold drop_frame. destruct (innermost _ _ _) as [[F2 gs]|] eqn:E; [|discriminate].
      destruct (unwind i (stack th)) as [[[gs' fr] st1]|] eqn:U; [|discriminate]. intros K m n; injection K as _ <-.
      destruct (unwind_cmp _ _ _ _ _ U ST). split; auto. }
    destruct a as [n| |[|i]|]; cbn [act_step] in H.
    - unfold tstep in H. unfold note_of, lock_call.
      destruct (code_of th) as [[o|g c k]|g c p k|gs nx] eqn:C.
      + destruct (held th) as [|[g h] rest].
        * destruct (stack th) as [|fr st'] eqn:STK; [discriminate|]. injection H as _ <- <-. inversion ST; subst.
          split; auto. cbn. intros g EQ. now destruct (H1 g).
        * injection H as _ <- <-. split; auto.
      + assert (K : exists p q, th' = mktask (Call g c p k) q (stack th) /\ ev = [] /\
                      forall g', c = EqWith g' -> p = Q_Acq g').
        { destruct (through_guard c) eqn:TG.
          - destruct (take_guard g (held th)) as [[hh q]|]; [|discriminate].
            destruct (enter_guard hh c) as [p|]; [|discriminate]. injection H as _ <- <-.
            exists p, q. split; auto. split; auto. intros g' ->. discriminate TG.
          - destruct (enter c) as [p|] eqn:EN; [|discriminate]. injection H as _ <- <-.
            exists p, (held th). split; auto. split; auto. intros g' ->. cbn in EN. congruence. }
        destruct K as (p & q & -> & -> & PQ). split; auto. cbn. rewrite app_nil_r. intros g' EQ. split.
        * intros ->. rewrite Nat.eqb_refl. apply busy_now.
        * rewrite (PQ _ EQ). reflexivity.
      + assert (STEP : forall F1 p1, pstep F t (inside t) g p = Some (F1, p1) ->
          Some (F1, mktask (Call g c p1 k) (held th) (stack th), @nil tevent) = Some (F', th', ev) ->
          cmp_ok (l ++ l') (st ++ [] ++ flat_map (lock_ret f) ev) t th').
        { intros F1 p1 E1 E2. injection E2 as _ <- <-. split; auto. cbn.
          eapply (pstep_cmp t c g F p F1 p1 l s st); eauto. }
        destruct p;
          try (destruct (pstep F t (inside t) g _) as [[F1 p1]|] eqn:E1 in H; [|discriminate H];
               eapply STEP; [exact E1|exact H]).
        * injection H as _ <- <-. split; cbn; auto.
        * injection H as _ <- <-. split; cbn; auto. constructor; auto. intros g' EQ. now destruct (CO g' EQ) as [_ []].
      + destruct gs as [|[g h] gs]; [destruct nx as [[[g c] k]|]|]; injection H as _ <- <-; split; cbn; auto.
    - destruct (length (stack th)).
      + destruct (drop_call _ t th) as [[F1 th1]|] eqn:E; [|discriminate]. injection H as _ <- <-. eapply DC; eauto.
      + destruct (drop_frame _ t th n) as [[F1 th1]|] eqn:E; [|discriminate]. injection H as _ <- <-. eapply DF; eauto.
    - destruct (stack th) eqn:STK; [discriminate|]. rewrite <- STK in *.
      destruct (drop_call _ t th) as [[F1 th1]|] eqn:E; [|discriminate]. injection H as _ <- <-. eapply DC; eauto.
    - destruct (S i <? length (stack th)); [|discriminate].
      destruct (drop_frame _ t th i) as [[F1 th1]|] eqn:E; [|discriminate]. injection H as _ <- <-. eapply DF; eauto.
    - destruct (finished th); [discriminate|].
      destruct (innermost _ _ _) as [[F2 gs]|] eqn:E; [|discriminate]. injection H as _ <- <-. split; cbn; auto.
  Qed.

  Lemma seen_cmp l s st : (forall t th, nth_error (tasks s0) t = Some th -> exists p, th = mktask (User p) [] []) ->
    seen l s st -> forall t th, nth_error (tasks s) t = Some th -> cmp_ok l st t th.
  Proof.
    intros I0. induction 1 as [|l s st [t a] s' ev th H IH S1 N]; intros u thu Nu.
    - destruct (I0 _ _ Nu) as [p ->]. split; cbn; auto.
    - cbn [fst snd] in *. destruct (step_inv _ _ _ _ _ _ S1) as (th0 & th' & N0 & TS & E). cbn in N0, TS, E.
      rewrite N in N0. injection N0 as <-. rewrite E in Nu.
      destruct (Nat.eq_dec t u) as [<-|NE].
      + rewrite (nth_set_same _ _ _ _ N) in Nu. injection Nu as <-. eapply act_cmp; eauto.
      + rewrite (nth_set_other _ _ _ _ NE) in Nu. destruct (IH u thu Nu) as [ST CO]. split; auto.
        destruct (code_of thu); auto.
        eapply cmp_pc_more; eauto. eapply Forall_impl; [|apply (note_who _ _ _ _ _ _ _ TS)]. cbn. congruence.
  Qed.

  Lemma seen_at l s st : seen l s st -> forall before x after, st = before ++ x :: after ->
    exists la a lb sa th s' ev, l = la ++ a :: lb /\ seen la sa before /\
      nth_error (tasks sa) (fst a) = Some th /\ step inside builder sa a = Some (s', ev) /\
      note_of f (fst a) (snd a) th ev = [x].
  Proof.
    induction 1 as [|l s st a s' ev th H IH S1 N]; intros before x after E.
    - destruct before; discriminate E.
    - destruct (step_inv _ _ _ _ _ _ S1) as (th0 & th' & N0 & TS & _). rewrite N in N0. injection N0 as <-.
      destruct (note_who _ _ _ _ _ _ _ TS) as [_ [NN|[y NN]]]; rewrite NN in E.
      + rewrite app_nil_r in E. destruct (IH _ _ _ E) as (la & b & lb & sa & tha & s1 & e1 & -> & R).
        exists la, b, (lb ++ [a]), sa, tha, s1, e1. rewrite <- app_assoc. auto.
      + destruct (exists_last (l := x :: after)) as (q & z & Q); [discriminate|]. rewrite Q, app_assoc in E.
        apply app_inj_tail in E. destruct E as [E ->].
        destruct q as [|x' q].
        * injection Q as -> ->. rewrite app_nil_r in E. subst st.
          exists l, a, [], s, th, s', ev. rewrite NN. auto 6.
        * injection Q as <- Q. destruct (IH before x q E) as (la & b & lb & sa & tha & s1 & e1 & -> & R).
          exists la, b, (lb ++ [a]), sa, tha, s1, e1. rewrite <- app_assoc. auto.
  Qed.

  Lemma compared l s ev before t g r after :
    (forall t th, nth_error (tasks s0) t = Some th -> exists p, th = mktask (User p) [] []) ->
    run inside builder s0 l = Some (s, ev) ->
    lock_story inside builder f s0 l = before ++ LRet t (EqWith g) r :: after ->
    if inside t then r = RPanic
    else exists b l1 l2 s1 ev1, r = RBool b /\ l = l1 ++ l2 /\ run inside builder s0 l1 = Some (s1, ev1) /\
      busy_with t (EqWith g) (lock_story inside builder f s0 l1) /\
      calls_by t (lock_story inside builder f s0 l1) = calls_by t before /\
      (b = true <-> value (fields s1 f) = value (fields s1 g)).
  Proof.
    intros I0 R E. pose proof (seen_more l _ _ _ _ _ seen_start R) as H. cbn [app] in H.
    destruct (seen_at _ _ _ H _ _ _ E) as (la & [u a] & lb & sa & th & s' & e' & -> & HA & N & SA & NN).
    cbn [fst snd] in *. destruct (seen_cmp _ _ _ I0 HA _ _ N) as [_ C].
    destruct (step_inv _ _ _ _ _ _ SA) as (th0 & th' & N0 & TS & _). cbn in N0, TS. rewrite N in N0. injection N0 as <-.
    destruct (note_who _ _ _ _ _ _ _ TS) as [W _]. rewrite NN in W. apply Forall_inv in W. cbn in W. subst u.
    assert (K : (exists c k h, code_of th = Call f c (Ret h r) k /\ c = EqWith g) \/
                exists c k nx, code_of th = Leave nx (Some (f, c, k)) /\ c = EqWith g).
    { unfold note_of, lock_call in NN. destruct a as [n| |[|i]|]; cbn [act_step] in TS.
      - unfold tstep in TS. destruct (code_of th) as [[o|g0 c k]|g0 c p k|gs nx].
        + destruct (held th) as [|[g1 h1] rest]; [destruct (stack th); [discriminate|]|]; injection TS as _ _ <-; discriminate NN.
        + exfalso. assert (EV : e' = []).
          { destruct (through_guard c).
            - destruct (take_guard g0 (held th)) as [[hh l0]|]; [|discriminate].
              destruct (enter_guard hh c); [|discriminate]. now injection TS as _ _ <-.
            - destruct (enter c); [|discriminate]. now injection TS as _ _ <-. }
          subst e'. destruct (Nat.eqb g0 f); discriminate NN.
        + destruct p;
            try (destruct (pstep (fields sa) t (inside t) g0 _) as [[F1 p1]|]; [|discriminate TS]; injection TS as _ _ <-;
                 discriminate NN);
            injection TS as _ _ <-; cbn in NN; try discriminate NN.
          destruct (Nat.eqb_spec g0 f) as [->|]; [|discriminate NN]. injection NN as -> ->. eauto 8.
        + destruct gs as [|[g1 h1] gs]; [destruct nx as [[[g1 c] k]|]|]; injection TS as _ _ <-; try discriminate NN.
          cbn in NN. destruct (Nat.eqb_spec g1 f) as [->|]; [|discriminate NN]. injection NN as -> _.
          right. eauto 8.
      - exfalso. destruct (length (stack th)).
        + destruct (drop_call _ t th) as [[F1 th1]|]; [|discriminate]. injection TS as _ _ <-. discriminate NN.
        + destruct (drop_frame _ t th n) as [[F1 th1]|]; [|discriminate]. injection TS as _ _ <-. discriminate NN.
      - exfalso. destruct (stack th); [discriminate|].
        destruct (drop_call _ t th) as [[F1 th1]|]; [|discriminate]. injection TS as _ _ <-. discriminate NN.
      - exfalso. destruct (S i <? length (stack th)); [|discriminate].
        destruct (drop_frame _ t th i) as [[F1 th1]|]; [|discriminate]. injection TS as _ _ <-. discriminate NN.
      - exfalso. destruct (finished th); [discriminate|].
        destruct (innermost _ _ _) as [[F2 gs]|]; [|discriminate]. injection TS as _ _ <-. discriminate NN. }
    destruct K as [(c & k & h & EC & ->)|(c & k & nx & EC & ->)]; rewrite EC in C.
    2: { now destruct (C g). }
    destruct (C g eq_refl) as [_ P]. destruct (inside t); auto. destruct P as (b & -> & P).
    destruct (P eq_refl) as (l1 & l2 & s1 & st1 & rest1 & -> & H1 & -> & FR & BU & V).
    destruct (seen_run _ _ _ H1) as [e1 R1]. pose proof (seen_story _ _ _ H1) as ES.
    exists b, l1, (l2 ++ (t, a) :: lb), s1, e1. rewrite <- ES, <- app_assoc.
    rewrite calls_by_app, (calls_by_none _ _ FR), Nat.add_0_r. auto 8.
  Qed.
End Compare.
