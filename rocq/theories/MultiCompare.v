(** Proof support for C67: comparing two sync fields looks at both at one moment.  No
    model here. *)
From Coq Require Import List Bool Arith Lia.
From Verif Require Import ProxyTypes MultiSpec RegisterSpec RegisterFacts MultiModel MultiStory MultiOwn MultiRegister.
Import ListNotations.

Section Compare.
  Variable builder : fid -> nat -> prog.
  Variable f : fid.
  Variable s0 : sys.

  (** A run with its calls and its story, grown at the end. *)
  Inductive seen : list (tid * nat) -> calls -> sys -> list lnote -> Prop :=
  | seen_start : seen [] nobody_calls s0 []
  | seen_step l cs s st a s' ev th :
      seen l cs s st -> step builder s a = Some (s', ev) -> nth_error (threads s) (fst a) = Some th ->
      seen (l ++ [a]) (calls_after cs (fst a) th) s' (st ++ lock_note f cs (fst a) th).

  Lemma seen_more l2 : forall l1 cs s st s' ev, seen l1 cs s st -> run builder s l2 = Some (s', ev) ->
    exists cs', seen (l1 ++ l2) cs' s' (st ++ lock_story builder f cs s l2).
  Proof.
    induction l2 as [|a l2 IH]; intros l1 cs s st s' ev H R; cbn in R.
    - injection R as <- _. cbn. rewrite !app_nil_r. eauto.
    - destruct (step builder s a) as [[s1 e1]|] eqn:S1; [|discriminate].
      destruct (run builder s1 l2) as [[s2 e2]|] eqn:R1; [|discriminate]. injection R as <- _.
      destruct (step_inv _ _ _ _ _ S1) as (th & th' & N & TS & E).
      destruct (IH _ _ _ _ _ _ (seen_step _ _ _ _ _ _ _ _ H S1 N) R1) as (cs' & H').
      exists cs'. cbn [lock_story]. rewrite N, S1. rewrite <- !app_assoc in H'. exact H'.
  Qed.

  Lemma run_app l1 : forall s l2 s1 e1 s2 e2, run builder s l1 = Some (s1, e1) ->
    run builder s1 l2 = Some (s2, e2) -> run builder s (l1 ++ l2) = Some (s2, e1 ++ e2).
  Proof.
    induction l1 as [|a l1 IH]; intros s l2 s1 e1 s2 e2 R1 R2; cbn in *.
    - injection R1 as <- <-. exact R2.
    - destruct (step builder s a) as [[s' e]|]; [|discriminate].
      destruct (run builder s' l1) as [[s'' e']|] eqn:R; [|discriminate]. injection R1 as <- <-.
      rewrite (IH _ _ _ _ _ _ R R2). now rewrite app_assoc.
  Qed.

  Lemma seen_run l cs s st : seen l cs s st -> exists ev, run builder s0 l = Some (s, ev).
  Proof.
    induction 1 as [|l cs s st a s' ev th H [e IH] S1 N]; [eexists; reflexivity|].
    eexists. eapply run_app; [exact IH|]. cbn. rewrite S1. reflexivity.
  Qed.

  Lemma seen_story l cs s st : seen l cs s st -> st = lock_story builder f nobody_calls s0 l.
  Proof.
    assert (G : forall l cs s st, seen l cs s st -> forall a s' ev th, step builder s a = Some (s', ev) ->
              nth_error (threads s) (fst a) = Some th ->
              lock_story builder f nobody_calls s0 (l ++ [a]) =
              lock_story builder f nobody_calls s0 l ++ lock_note f cs (fst a) th).
    { enough (G : forall l cs0 x l2, (exists s' ev, run builder x (l ++ l2) = Some (s', ev)) ->
        exists s1 e1 cs1, run builder x l = Some (s1, e1) /\
          lock_story builder f cs0 x (l ++ l2) = lock_story builder f cs0 x l ++ lock_story builder f cs1 s1 l2 /\
          (forall lx stx, seen lx cs0 x stx -> exists st1, seen (lx ++ l) cs1 s1 st1)).
      { intros l1 cs1 s1 st1 H a s' ev th S1 N.
        destruct (seen_run _ _ _ _ (seen_step _ _ _ _ _ _ _ _ H S1 N)) as [e R].
        assert (U : forall l cs s st, seen l cs s st -> forall cs' s' st', seen l cs' s' st' -> cs' = cs /\ s' = s).
        { clear. induction 1 as [|l cs s st a s' ev th H IH S1 N]; intros cs' s'' st' H'.
          - inversion H'; subst; auto. destruct l; discriminate.
          - inversion H' as [E|l2 cs2 s2 st2 a2 s2' ev2 th2 H2 S2 N2 E]; subst; [destruct l; discriminate|].
            apply app_inj_tail in E. destruct E as [-> ->]. destruct (IH _ _ _ H2) as [-> ->].
            rewrite S1 in S2. injection S2 as <- <-. rewrite N in N2. injection N2 as <-. auto. }
        destruct (G l1 nobody_calls s0 [a]) as (s2 & e2 & cs2 & R2 & ES & EN); [eauto|].
        destruct (EN [] [] seen_start) as [st2 H2]. destruct (U _ _ _ _ H _ _ _ H2) as [-> ->].
        rewrite ES. f_equal. cbn. rewrite N, S1. apply app_nil_r. }
      induction l0 as [|b l1 IH]; intros cs0 x l2 (s' & ev & R).
      - exists x, [], cs0. repeat split; auto. intros lx stx H. rewrite app_nil_r. eauto.
      - cbn in R. destruct (step builder x b) as [[x1 f1]|] eqn:S1; [|discriminate].
        destruct (run builder x1 (l1 ++ l2)) as [[x2 f2]|] eqn:R1; [|discriminate].
        destruct (step_inv _ _ _ _ _ S1) as (th & th' & N & TS & E).
        destruct (IH (calls_after cs0 (fst b) th) x1 l2) as (s1 & e1 & cs1 & R2 & ES & EN); [eauto|].
        exists s1, (f1 ++ e1), cs1. cbn. rewrite S1, R2, N, ES, app_assoc. repeat split; auto.
        intros lx stx H. destruct (EN _ _ (seen_step _ _ _ _ _ _ _ _ H S1 N)) as [st1 H1].
        exists st1. rewrite <- app_assoc in H1. exact H1. }
    intros H. induction H as [|l cs s st a s' ev th H IH S1 N]; auto.
    rewrite (G _ _ _ _ H _ _ _ _ S1 N), IH. reflexivity.
  Qed.

  (** At some moment since [t] made the call, the comparison was right. *)
  Definition past (t : tid) (g : fid) (b : bool) (l : list (tid * nat)) (st : list lnote) : Prop :=
    exists l1 l2 cs1 s1 st1 rest, l = l1 ++ l2 /\ seen l1 cs1 s1 st1 /\ st = st1 ++ rest /\
      Forall (fun x => who x <> t) rest /\ busy_with t (EqWith g) st1 /\
      (b = true <-> value (fields s1 f) = value (fields s1 g)).

  Definition not_eq (c : call) : Prop := forall g, c <> EqWith g.

  Definition cmp_pc (t : tid) (c : call) (g0 : fid) (p : pc) (l : list (tid * nat)) (st : list lnote) : Prop :=
    forall g, c = EqWith g ->
      (g0 = f -> busy_with t c st) /\
      match p with
      | Q_Acq g' | Q_Acq2 g' | Q_Cmp g' => g' = g
      | Q_Rel2 g' b => g' = g /\ (g0 = f -> past t g b l st)
      | Q_Rel b => g0 = f -> past t g b l st
      | Ret h r => exists b, r = RBool b /\ (g0 = f -> past t g b l st)
      | _ => False
      end.

  Definition cmp_ok (cs : calls) (l : list (tid * nat)) (st : list lnote) (t : tid) (th : thread) : Prop :=
    match code_of th with
    | User _ => Forall not_eq (cs t) /\ length (cs t) = length (stack th)
    | Call g0 p _ => exists c rest, cs t = c :: rest /\ Forall not_eq rest /\ length rest = length (stack th) /\
                                    cmp_pc t c g0 p l st
    end.

  Lemma past_more t g b l st l' new : past t g b l st -> Forall (fun x => who x <> t) new ->
    past t g b (l ++ l') (st ++ new).
  Proof.
    intros (l1 & l2 & cs1 & s1 & st1 & rest & -> & H & -> & FR & BU & V) N.
    exists l1, (l2 ++ l'), cs1, s1, st1, (rest ++ new). rewrite !app_assoc. repeat split; auto; try apply V.
    apply Forall_app; auto.
  Qed.

  Lemma cmp_pc_more t c g0 p l st l' new : cmp_pc t c g0 p l st -> Forall (fun x => who x <> t) new ->
    cmp_pc t c g0 p (l ++ l') (st ++ new).
  Proof.
    intros H N g E. destruct (H g E) as [B P]. split; [intros; apply busy_more; auto|].
    destruct p; auto.
    - destruct P as (b & -> & P). exists b. split; auto using past_more.
    - destruct P as (-> & P). split; auto using past_more.
    - auto using past_more.
  Qed.

  Lemma same_value_spec a b : same_value a b = true <-> a = b.
  Proof.
    destruct a as [x|], b as [y|]; cbn; split; try discriminate; auto.
    - intros E. apply Nat.eqb_eq in E. congruence.
    - intros E. injection E as ->. apply Nat.eqb_refl.
  Qed.

  Lemma note_who cs t th : Forall (fun x => who x = t) (lock_note f cs t th).
  Proof.
    unfold lock_note. destruct (code_of th) as [[o|g c k]|g [] k]; auto.
    - destruct (Nat.eqb g f); auto.
    - destruct (cs t); auto. destruct (Nat.eqb g f); auto.
  Qed.

  Lemma calls_after_other cs t th u : u <> t -> calls_after cs t th u = cs u.
  Proof.
    intros N. unfold calls_after. destruct (code_of th) as [[o|g c k]|g [] k]; auto; now apply set_calls_other.
  Qed.

  Lemma pstep_cmp t c g0 F p F' p' l cs s st l' :
    fields s = F -> seen l cs s st -> pstep F t g0 p = Some (F', p') ->
    cmp_pc t c g0 p l st -> cmp_pc t c g0 p' (l ++ l') (st ++ []).
  Proof.
    intros EF SN H P g E. destruct (P g E) as [B Q]. rewrite app_nil_r. split; auto.
    destruct p; try contradiction; cbn in H.
    - discriminate H.
    - subst g1. destruct (lw (F g0)); [discriminate H|]. injection H as _ <-. reflexivity.
    - subst g1. destruct (lw (F g)); [discriminate H|]. injection H as _ <-. reflexivity.
    - subst g1. injection H as _ <-. split; auto. intros ->.
      exists l, l', cs, s, st, []. rewrite app_nil_r. subst c. repeat split; auto; rewrite EF; apply same_value_spec.
    - destruct Q as [-> Q]. injection H as _ <-. intros E0. rewrite <- (app_nil_r st). apply past_more; auto.
    - injection H as _ <-. exists b. split; auto. intros E0. rewrite <- (app_nil_r st). apply past_more; auto.
  Qed.

  Lemma seen_cmp l cs s st : (forall t th, nth_error (threads s0) t = Some th -> exists p, th = mkthread (User p) [] []) ->
    seen l cs s st -> forall t th, nth_error (threads s) t = Some th -> cmp_ok cs l st t th.
  Proof.
    intros I0. induction 1 as [|l cs s st [t n] s' ev th H IH S1 N]; intros u thu Nu.
    - destruct (I0 _ _ Nu) as [p ->]. cbn. split; [constructor|reflexivity].
    - cbn [fst] in *. destruct (step_inv _ _ _ _ _ S1) as (th0 & th' & N0 & TS & E). cbn in N0, TS, E.
      rewrite N in N0. injection N0 as <-. rewrite E in Nu.
      destruct (Nat.eq_dec t u) as [<-|NE].
      + rewrite (nth_set_same _ _ _ _ N) in Nu. injection Nu as <-.
        specialize (IH t th N). unfold cmp_ok in IH. unfold tstep in TS. unfold calls_after, lock_note.
        destruct (code_of th) as [[o|g c k]|g p k] eqn:C.
        * destruct (held th) as [|[g h] rest].
          -- destruct (stack th) as [|fr st'] eqn:STK; [discriminate|]. injection TS as _ <- _. cbn.
             destruct IH as [NQ LEN]. destruct (cs t) as [|c rest] eqn:CS; [discriminate|].
             exists c, rest. inversion NQ; subst. repeat split; auto; destruct (H2 g); auto.
          -- injection TS as _ <- _. cbn. auto.
        * assert (K : exists p l, th' = mkthread (Call g p k) l (stack th) /\
                        forall g', c = EqWith g' -> p = Q_Acq g').
          { destruct (through_guard c) eqn:TG.
            - destruct (take_guard g (held th)) as [[hh q]|]; [|discriminate].
              destruct (enter_guard hh c) as [p|]; [|discriminate]. injection TS as _ <- _.
              exists p, q. split; auto. intros g' ->. discriminate TG.
            - destruct (enter c) as [p|] eqn:EN; [|discriminate]. injection TS as _ <- _.
              exists p, (held th). split; auto. intros g' ->. cbn in EN. congruence. }
          destruct K as (p & q & -> & PQ). cbn. exists c, (cs t). rewrite set_calls_same. destruct IH as [NQ LEN].
          repeat split; auto.
          -- intros ->. rewrite Nat.eqb_refl. apply busy_now.
          -- rewrite (PQ _ H0). reflexivity.
        * destruct IH as (c & rest & CS & NQ & LEN & PC).
          assert (STEP : forall F1 p1, pstep (fields s) t g p = Some (F1, p1) ->
            Some (F1, mkthread (Call g p1 k) (held th) (stack th), @nil bevent) = Some (fields s', th', ev) ->
            cmp_ok cs (l ++ [(t, n)]) (st ++ []) t th').
          { intros F1 p1 E1 E2. injection E2 as _ <- _. cbn. exists c, rest. repeat split; auto.
            all: eapply (pstep_cmp t c g (fields s) p F1 p1 l cs s st); eauto. }
          destruct p;
            try (destruct (pstep (fields s) t g _) as [[F1 p1]|] eqn:E1 in TS; [|discriminate TS];
                 eapply STEP; [exact E1|exact TS]).
          -- injection TS as _ <- _. cbn. rewrite set_calls_same, CS. auto.
          -- injection TS as _ <- _. cbn. rewrite CS. split.
             ++ constructor; auto. intros g' EQ. now destruct (PC g' EQ) as [_ []].
             ++ cbn. auto.
      + rewrite (nth_set_other _ _ _ _ NE) in Nu. specialize (IH u thu Nu). unfold cmp_ok in *.
        rewrite calls_after_other by auto. destruct (code_of thu); auto.
        destruct IH as (c & rest & CS & NQ & LEN & PC). exists c, rest. repeat split; auto.
        all: eapply cmp_pc_more; eauto; eapply Forall_impl; [|apply note_who]; cbn; congruence.
  Qed.

  Lemma seen_at l cs s st : seen l cs s st -> forall before x after, st = before ++ x :: after ->
    exists la a lb csa sa th, l = la ++ a :: lb /\ seen la csa sa before /\
      nth_error (threads sa) (fst a) = Some th /\ lock_note f csa (fst a) th = [x].
  Proof.
    induction 1 as [|l cs s st a s' ev th H IH S1 N]; intros before x after E.
    - destruct before; discriminate E.
    - destruct (note_cases f cs (fst a) th) as [NN|[y NN]]; rewrite NN in E.
      + rewrite app_nil_r in E. destruct (IH _ _ _ E) as (la & b & lb & csa & sa & tha & -> & R).
        exists la, b, (lb ++ [a]), csa, sa, tha. rewrite <- app_assoc. auto.
      + destruct (exists_last (l := x :: after)) as (q & z & Q); [discriminate|]. rewrite Q, app_assoc in E.
        apply app_inj_tail in E. destruct E as [E ->].
        destruct q as [|x' q].
        * injection Q as -> ->. rewrite app_nil_r in E. subst st.
          exists l, a, [], cs, s, th. rewrite NN. auto.
        * injection Q as <- Q. destruct (IH before x q E) as (la & b & lb & csa & sa & tha & -> & R).
          exists la, b, (lb ++ [a]), csa, sa, tha. rewrite <- app_assoc. auto.
  Qed.

  Lemma compared l s ev before t g r after :
    (forall t th, nth_error (threads s0) t = Some th -> exists p, th = mkthread (User p) [] []) ->
    run builder s0 l = Some (s, ev) ->
    lock_story builder f nobody_calls s0 l = before ++ LRet t (EqWith g) r :: after ->
    exists b l1 l2 s1 ev1, r = RBool b /\ l = l1 ++ l2 /\ run builder s0 l1 = Some (s1, ev1) /\
      busy_with t (EqWith g) (lock_story builder f nobody_calls s0 l1) /\
      calls_by t (lock_story builder f nobody_calls s0 l1) = calls_by t before /\
      (b = true <-> value (fields s1 f) = value (fields s1 g)).
  Proof.
    intros I0 R E. destruct (seen_more l _ _ _ _ _ _ seen_start R) as [cs H]. cbn [app] in H.
    destruct (seen_at _ _ _ _ H _ _ _ E) as (la & [u n] & lb & csa & sa & th & -> & HA & N & NN).
    cbn [fst] in *. pose proof (seen_cmp _ _ _ _ I0 HA _ _ N) as C.
    pose proof (note_who csa u th) as W. rewrite NN in W. apply Forall_inv in W. cbn in W. subst u.
    unfold lock_note in NN. unfold cmp_ok in C.
    destruct (code_of th) as [[o|g0 c k]|g0 p k]; try discriminate NN.
    - destruct (Nat.eqb g0 f); discriminate NN.
    - destruct p; try discriminate NN. destruct C as (c & rest & CS & _ & _ & PC). rewrite CS in NN.
      destruct (Nat.eqb_spec g0 f) as [->|NE]; [|discriminate NN]. injection NN as -> <-.
      destruct (PC g eq_refl) as [_ (b & -> & P)].
      destruct (P eq_refl) as (l1 & l2 & cs1 & s1 & st1 & rest1 & -> & H1 & -> & FR & BU & V).
      destruct (seen_run _ _ _ _ H1) as [e1 R1]. pose proof (seen_story _ _ _ _ H1) as ES.
      exists b, l1, (l2 ++ (t, n) :: lb), s1, e1. rewrite <- ES, <- app_assoc.
      rewrite calls_by_app, (calls_by_none _ _ FR), Nat.add_0_r. auto 8.
  Qed.
End Compare.
