(** Proof support for C67: a sync locked field among others shows the value last set.
    No model here. *)
From Coq Require Import List Bool Arith Lia.
From Verif Require Import ProxyTypes MultiSpec RegisterSpec RegisterFacts MultiModel MultiStory MultiOwn.
Import ListNotations.

(** ** Who has the writer bit has no readers beside it, unless it still waits *)

Definition drains (p : pc) : bool :=
  match p with I_Drain _ | M_Drain _ | W_Drain | C_Drain | LW_Drain => true | _ => false end.

Definition drained (s : sys) : Prop := forall f u,
  lw (fields s f) = Some u -> lr (fields s f) <> [] ->
  exists th p k, nth_error (threads s) u = Some th /\ code_of th = Call f p k /\ drains p = true.

Lemma drop_one_nil t l : drop_one t l <> [] -> l <> [].
Proof. destruct l; cbn; [auto|discriminate]. Qed.

Lemma upd_cases F f c g : (g = f /\ upd F f c g = c) \/ (g <> f /\ upd F f c g = F g).
Proof. unfold upd. destruct (Nat.eqb_spec g f); auto. Qed.

Lemma release_drain F t f h g u : lw (release F t f h g) = Some u -> lr (release F t f h g) <> [] ->
  lw (F g) = Some u /\ lr (F g) <> [].
Proof.
  destruct h; cbn; auto;
    match goal with |- context [upd F f ?c g] => destruct (upd_cases F f c g) as [(-> & ->)|(_ & ->)] end;
    cbn; auto; try discriminate.
  intros E N. eauto using drop_one_nil.
Qed.

Lemma pstep_drain F t f p F' p' l0 : pstep F t f p = Some (F', p') ->
  agree F t (own_pc f p ++ l0) -> excl F ->
  forall g u, lw (F' g) = Some u -> lr (F' g) <> [] ->
  (u = t /\ g = f /\ drains p' = true) \/
  (lw (F g) = Some u /\ lr (F g) <> [] /\ ~ (u = t /\ g = f /\ drains p = true)).
Proof.
  intros H A X g u W R. pose proof (A f) as (_ & AU & _). pose proof (X f) as XF.
  rewrite cnt_app in AU.
  destruct p; cbn in H; try discriminate H;
    repeat match type of H with
      | context [match ?x with _ => _ end] =>
          match x with
          | value _ => destruct x eqn:?
          | lw _ => destruct x eqn:?
          | lu _ => destruct x eqn:?
          | lr _ => destruct x eqn:?
          | _ => is_var x; destruct x
          end; try discriminate H
      end;
    injection H as <- <-;
    try (apply (release_drain F t) in W as W'; auto; destruct W'; right; repeat split; auto;
         intros (_ & _ & K); discriminate K);
    try match type of W with context [upd F ?a ?c g] =>
          destruct (upd_cases F a c g) as [(EG & EU)|(EG & EU)]; rewrite EU in W, R; cbn in W, R
        end;
    try discriminate W;
    try (right; repeat split; eauto using drop_one_nil; (intros (_ & _ & K); discriminate K));
    try (left; injection W as <-; auto; fail);
    try (subst g; right; repeat split; eauto using drop_one_nil; (intros (_ & _ & K); discriminate K));
    try (right; repeat split; auto; intros (_ & K & _); congruence);
    try (right; repeat split; auto; intros (_ & -> & _); congruence).
  all: subst g; cbn in AU; rewrite Nat.eqb_refl in AU; cbn in AU; exfalso; destruct XF as [XF|XF]; [congruence|];
    rewrite XF in AU; cbn in AU; lia.
Qed.

Section Run.
  Variable builder : fid -> nat -> prog.

  Lemma tstep_drain F t n th F' th' ev :
    tstep builder F t n th = Some (F', th', ev) -> agree F t (owns th) -> excl F ->
    forall g u, lw (F' g) = Some u -> lr (F' g) <> [] ->
    (u = t /\ exists p k, code_of th' = Call g p k /\ drains p = true) \/
    (lw (F g) = Some u /\ lr (F g) <> [] /\
     ~ (u = t /\ exists p k, code_of th = Call g p k /\ drains p = true)).
  Proof.
    unfold tstep, owns. destruct th as [c h st]. cbn. intros H A X g u W R.
    assert (Z : F' = F -> (forall p k, c = Call g p k -> drains p = false) ->
                lw (F g) = Some u /\ lr (F g) <> [] /\
                ~ (u = t /\ exists p k, c = Call g p k /\ drains p = true)).
    { intros -> D. repeat split; auto. intros (_ & p & k & E & Y). rewrite (D p k E) in Y. discriminate. }
    destruct c as [[o|f c k]|f p k].
    - destruct h as [|[f h] rest].
      + destruct st as [|fr st]; [discriminate|]. injection H as <- <- <-.
        right. apply Z; auto. discriminate.
      + injection H as <- <- <-. right. destruct (release_drain F t f h g u W R) as [W' R'].
        repeat split; auto. intros (_ & p & k & E & _). discriminate E.
    - right. destruct (through_guard c).
      + destruct (take_guard f h) as [[hh l]|]; [|discriminate].
        destruct (enter_guard hh c); [|discriminate]. injection H as <- <- <-. apply Z; auto. discriminate.
      + destruct (enter c); [|discriminate]. injection H as <- <- <-. apply Z; auto. discriminate.
    - assert (P : forall F1 p1, pstep F t f p = Some (F1, p1) ->
                  Some (F1, mkthread (Call f p1 k) h st, @nil bevent) = Some (F', th', ev) ->
                  (u = t /\ exists p k, code_of th' = Call g p k /\ drains p = true) \/
                  (lw (F g) = Some u /\ lr (F g) <> [] /\
                   ~ (u = t /\ exists p0 k0, Call f p k = Call g p0 k0 /\ drains p0 = true))).
      { intros F1 p1 E1 E2. injection E2 as <- <- <-. cbn.
        destruct (pstep_drain _ _ _ _ _ _ _ E1 A X g u W R) as [(-> & -> & D)|(W' & R' & D)].
        - left. eauto.
        - right. repeat split; auto. intros (-> & p0 & k0 & E & Y). apply D.
          injection E as -> -> ->. auto. }
      destruct p;
        try (destruct (pstep F t f _) as [[F1 p1]|] eqn:E1 in H; [|discriminate H];
             eapply P; [exact E1|exact H]);
        injection H as <- <- <-; right; apply Z; auto; intros p0 k0 E; injection E as _ <- _; reflexivity.
  Qed.

  Lemma step_drained s a s' ev : step builder s a = Some (s', ev) -> owned s -> drained s -> drained s'.
  Proof.
    intros H [X A] D g u W R. destruct (step_inv _ _ _ _ _ H) as (th & th' & N & T & E).
    pose proof (A (fst a)) as A0. unfold owns_at in A0. rewrite N in A0. rewrite E.
    destruct (tstep_drain _ _ _ _ _ _ _ T A0 X g u W R) as [(-> & p & k & C & Y)|(W' & R' & Y)].
    - exists th', p, k. rewrite (nth_set_same _ _ _ _ N). auto.
    - destruct (D g u W' R') as (thu & p & k & Nu & Cu & Du).
      destruct (Nat.eq_dec (fst a) u) as [<-|NE].
      + exfalso. apply Y. split; auto. rewrite N in Nu. injection Nu as <-. eauto.
      + exists thu, p, k. rewrite (nth_set_other _ _ _ _ NE). auto.
  Qed.

  Lemma reach_drained v0 ps l s ev : run builder (start v0 ps) l = Some (s, ev) -> drained s.
  Proof.
    intros R. eapply (run_ind builder (fun s => owned s /\ drained s)); [|exact R|].
    - intros s1 a s2 e H [O D]. eauto using step_owned, step_drained.
    - split; [apply start_owned|]. intros f u W. discriminate W.
  Qed.

  (** ** The locked field *)

  Variable f : fid.
  Variable v0 : nat.

  Definition pc_ok (t : tid) (c : call) (p : pc) (val : option nat) (before : list lnote) : Prop :=
    match p with
    | LR_Acq | LR_Map => c = LockRead
    | LW_Acq | LW_Drain | LW_Map => c = LockWrite
    | K_Acq | K_Val => c = Proxy OClone
    | K_Flag ov => c = Proxy OClone /\ meanwhile v0 t c before ov
    | K_Rel ov b => c = Proxy OClone /\ meanwhile v0 t c before ov /\ b = true
    | Q_Acq _ | Q_Acq2 _ | Q_Cmp _ | Q_Rel2 _ _ | Q_Rel _ => exists g, c = EqWith g
    | G_Get h => c = Proxy GGet /\ (h = HR \/ h = HM)
    | G_Set v => c = Proxy (GSet v)
    | G_Drop h => c = Proxy GDrop
    | Ret h r =>
        match c with
        | LockRead => h = HR /\ exists v, r = RGuard v /\ val = Some v
        | LockWrite => h = HM /\ exists v, r = RGuard v /\ val = Some v
        | Proxy GGet => (h = HR \/ h = HM) /\ exists v, r = RVal (Some v) /\ val = Some v
        | Proxy (GSet v) => h = HM /\ r = RUnit /\ val = Some v
        | Proxy GDrop => h = HNone /\ r = RUnit
        | Proxy OClone => h = HNone /\ exists ov, meanwhile v0 t c before ov /\ r = RClone ov true true
        | EqWith _ => h = HNone /\ exists b, r = RBool b
        | Proxy _ => False
        end
    | _ => False
    end.

  Definition frame_ok (fr : frame) : Prop := fr_field fr <> f /\ forall r, lockily f (fr_cont fr r).

  Definition thread_ok (cs : calls) (F : cells) (before : list lnote) (t : tid) (th : thread) : Prop :=
    Forall frame_ok (stack th) /\
    match code_of th with
    | User p => lockily f p
    | Call g p k =>
        (forall r, lockily f (k r)) /\
        (g = f -> exists c rest, cs t = c :: rest /\ busy_with t c before /\
                                 pc_ok t c p (value (F f)) before)
    end.

  (** A write has been made but its call has not returned yet. *)
  Definition setting (cs : calls) (s : sys) : Prop :=
    exists u th k v rest, nth_error (threads s) u = Some th /\ code_of th = Call f (Ret HM RUnit) k /\
      cs u = Proxy (GSet v) :: rest /\ value (fields s f) = Some v.

  Definition good (cs : calls) (s : sys) (before : list lnote) : Prop :=
    owned s /\ drained s /\ flag (fields s f) = true /\
    (value (fields s f) = Some (last_set v0 before) \/ setting cs s) /\
    forall t th, nth_error (threads s) t = Some th -> thread_ok cs (fields s) before t th.

  Lemma pc_ok_more t c p val a b : Forall (fun x => who x <> t) b ->
    pc_ok t c p val a -> pc_ok t c p val (a ++ b).
  Proof.
    intros H. destruct p; cbn; auto; try (intros; intuition eauto using meanwhile_more; fail).
    destruct c as [[]| | |]; auto; intros (E & ov & M & R); eauto using meanwhile_more.
  Qed.

  (** A thread that owns something of the field and another one that may write. *)
  Lemma one_writer s t th u thu k :
    owned s -> drained s -> nth_error (threads s) t = Some th -> nth_error (threads s) u = Some thu ->
    u <> t -> In (f, KW) (own_code (code_of th)) ->
    (forall p k, code_of th = Call f p k -> drains p = false) ->
    k = KR \/ k = KW ->
    ~ In (f, k) (owns thu).
  Proof.
    intros [X A] D N Nu NE I P K J.
    pose proof (A t f) as (W & _ & _). pose proof (A u f) as (Wu & _ & Ru).
    unfold owns_at in W, Wu, Ru. rewrite N in W. rewrite Nu in Wu, Ru.
    assert (E : lw (fields s f) = Some t).
    { apply at_most_one. rewrite <- W. unfold owns. rewrite cnt_app. apply cnt_in in I. lia. }
    apply cnt_in in J. destruct K as [-> | ->].
    - destruct (D f t E) as (th' & p & kk & N' & C & Y).
      + intros Z. rewrite Z in Ru. cbn in Ru. lia.
      + rewrite N in N'. injection N' as <-. rewrite (P _ _ C) in Y. discriminate.
    - rewrite E in Wu. rewrite at_most_other in Wu by auto. lia.
  Qed.

  Lemma pc_ok_val t c p val val' before : pc_ok t c p val before ->
    val' = val \/ (~ In (f, KR) (own_pc f p) /\ ~ In (f, KW) (own_pc f p)) ->
    pc_ok t c p val' before.
  Proof.
    intros H [-> |[NR NW]]; auto. destruct p; cbn in *; auto.
    destruct c as [[]| | |]; auto; destruct H as (E & H);
      try (destruct E as [E|E]); subst h; cbn in *; exfalso; auto.
  Qed.

  Lemma others_ok cs F before u thu cs' F' new :
    thread_ok cs F before u thu -> cs' u = cs u -> Forall (fun x => who x <> u) new ->
    value (F' f) = value (F f) \/ (~ In (f, KR) (owns thu) /\ ~ In (f, KW) (owns thu)) ->
    thread_ok cs' F' (before ++ new) u thu.
  Proof.
    intros [ST C] E N V. split; auto. destruct (code_of thu) as [p|g p k] eqn:CE; auto.
    destruct C as [K P]. split; auto. intros G. destruct (P G) as (c & rest & EC & B & PO).
    exists c, rest. rewrite E. repeat split; auto; [now apply busy_more|].
    apply pc_ok_more; auto. eapply pc_ok_val; eauto.
    destruct V as [V|[V1 V2]]; auto. right. unfold owns in V1, V2. rewrite CE in V1, V2. subst g. cbn in V1, V2.
    split; intros I; [apply V1|apply V2]; apply in_or_app; auto.
  Qed.

  Lemma release_value F t g h x : value (release F t g h x) = value (F x) /\ flag (release F t g h x) = flag (F x).
  Proof.
    destruct h; cbn; auto;
      match goal with |- context [upd F g ?c x] => destruct (upd_cases F g c x) as [(-> & ->)|(_ & ->)] end;
      cbn; auto.
  Qed.

  Lemma pstep_value F t g p F' p' : pstep F t g p = Some (F', p') ->
    g <> f \/ (exists c val before, pc_ok t c p val before /\ forall v, p <> G_Set v) ->
    value (F' f) = value (F f) /\ flag (F' f) = flag (F f).
  Proof.
    intros H K.
    destruct p; cbn in H; try discriminate H;
      repeat match type of H with
        | context [match ?x with _ => _ end] =>
            match x with
            | value _ => destruct x eqn:?
            | lw _ => destruct x eqn:?
            | lu _ => destruct x eqn:?
            | lr _ => destruct x eqn:?
            | _ => is_var x; destruct x
            end; try discriminate H
        end;
      injection H as <- <-;
      try (apply release_value);
      try match goal with |- context [upd F ?a ?c f] =>
            destruct (upd_cases F a c f) as [(EG & EU)|(EG & EU)]; rewrite EU; cbn
          end; auto; subst; auto;
      destruct K as [K|(c & val & before & PO & NS)]; try congruence; cbn in PO; try tauto;
      exfalso; eapply NS; reflexivity.
  Qed.

  Lemma assemble cs s before t n th s' ev th' cs' new :
    good cs s before -> step builder s (t, n) = Some (s', ev) ->
    nth_error (threads s) t = Some th -> threads s' = set_nth t (threads s) th' ->
    thread_ok cs' (fields s') (before ++ new) t th' ->
    flag (fields s' f) = true ->
    (value (fields s' f) = Some (last_set v0 (before ++ new)) \/ setting cs' s') ->
    value (fields s' f) = value (fields s f) \/ (exists v k, code_of th = Call f (G_Set v) k) ->
    Forall (fun x => who x = t) new -> (forall u, u <> t -> cs' u = cs u) ->
    good cs' s' (before ++ new).
  Proof.
    intros (O & D & FL & V & T) S N E OK FL' V' VC NW CS.
    split; [eapply step_owned; eauto|]. split; [eapply step_drained; eauto|].
    split; auto. split; auto. intros u thu Nu. rewrite E in Nu.
    destruct (Nat.eq_dec t u) as [<-|NE].
    - rewrite (nth_set_same _ _ _ _ N) in Nu. injection Nu as <-. auto.
    - rewrite (nth_set_other _ _ _ _ NE) in Nu. eapply others_ok; eauto.
      + eapply Forall_impl; [|exact NW]. cbn. congruence.
      + destruct VC as [VC|(v & k & VC)]; auto. right.
        assert (W : forall kd, kd = KR \/ kd = KW -> ~ In (f, kd) (owns thu)); auto.
        intros kd K. apply (one_writer s t th u thu kd O D N Nu); auto; rewrite VC; cbn; auto.
        intros p k0 C. injection C as <- _. reflexivity.
  Qed.

  Lemma value_kept cs s before t th s' th' cs' new :
    (value (fields s f) = Some (last_set v0 before) \/ setting cs s) ->
    nth_error (threads s) t = Some th -> threads s' = set_nth t (threads s) th' ->
    value (fields s' f) = value (fields s f) ->
    (forall v, last_set v new = v) -> (forall u, u <> t -> cs' u = cs u) ->
    (forall k, code_of th <> Call f (Ret HM RUnit) k) \/ (forall v rest, cs t <> Proxy (GSet v) :: rest) ->
    value (fields s' f) = Some (last_set v0 (before ++ new)) \/ setting cs' s'.
  Proof.
    intros V N E VE L CS NS. destruct V as [V|(u & thu & k & v & rest & Nu & Cu & Eu & Vu)].
    - left. rewrite VE, V, last_set_app, L. reflexivity.
    - right. assert (NE : t <> u).
      { intros <-. rewrite N in Nu. injection Nu as <-. destruct NS as [NS|NS]; [now apply (NS k)|].
        now apply (NS v rest). }
      exists u, thu, k, v, rest. rewrite E, (nth_set_other _ _ _ _ NE), CS, VE by auto. auto.
  Qed.

  (** Nobody is in the middle of a write when [t] owns something of the field. *)
  Lemma not_setting cs s before t th kd : good cs s before ->
    nth_error (threads s) t = Some th -> In (f, kd) (owns th) -> kd = KR \/ kd = KW ->
    (forall k, code_of th <> Call f (Ret HM RUnit) k) \/ (forall v rest, cs t <> Proxy (GSet v) :: rest) ->
    value (fields s f) = Some (last_set v0 before).
  Proof.
    intros (O & D & FL & V & T) N I K NS. destruct V as [V|(u & thu & k & v & rest & Nu & Cu & Eu & Vu)]; auto.
    exfalso. assert (NE : t <> u).
    { intros <-. rewrite N in Nu. injection Nu as <-. destruct NS as [NS|NS]; [now apply (NS k)|].
      now apply (NS v rest). }
    refine (one_writer s u thu t th kd O D Nu N NE _ _ K I).
    - rewrite Cu. cbn. auto.
    - intros p k0 C. rewrite Cu in C. injection C as <- _. reflexivity.
  Qed.

  (** Nor when nobody has the writer bit. *)
  Lemma at_rest cs s before : good cs s before -> lw (fields s f) = None ->
    value (fields s f) = Some (last_set v0 before).
  Proof.
    intros ([X A] & D & FL & V & T) W. destruct V as [V|(u & thu & k & v & rest & Nu & Cu & Eu & Vu)]; auto.
    exfalso. pose proof (A u f) as (AW & _ & _). unfold owns_at in AW. rewrite Nu, W in AW.
    unfold owns in AW. rewrite Cu in AW. cbn in AW. rewrite Nat.eqb_refl in AW. discriminate AW.
  Qed.

  Lemma a_value cs s before : good cs s before -> exists v, value (fields s f) = Some v.
  Proof. intros (_ & _ & _ & [V|(u & thu & k & v & rest & _ & _ & _ & V)] & _); eauto. Qed.

  (** A step of a call on the field itself. *)
  Lemma pstep_ok cs s before t th c p k F' p' :
    good cs s before -> nth_error (threads s) t = Some th -> code_of th = Call f p k ->
    busy_with t c before -> pc_ok t c p (value (fields s f)) before ->
    pstep (fields s) t f p = Some (F', p') ->
    pc_ok t c p' (value (F' f)) before.
  Proof.
    intros G N C B P H. destruct (a_value _ _ _ G) as [w VW].
    assert (FL : flag (fields s f) = true) by apply G.
    assert (M : In (f, KR) (own_pc f p) -> (forall r, p <> Ret HM r) ->
                meanwhile v0 t c before (value (fields s f))).
    { intros I NR. exists before, []. rewrite app_nil_r. repeat split; auto.
      eapply (not_setting cs s before t th KR); eauto.
      - unfold owns. rewrite C. cbn. apply in_or_app. auto.
      - left. intros k0 E. rewrite C in E. injection E as -> _. now apply (NR RUnit). }
    destruct p; cbn in P, H; try contradiction; try discriminate H;
      repeat match type of H with
        | context [match ?x with _ => _ end] =>
            match x with
            | value _ => destruct x eqn:?
            | lw _ => destruct x eqn:?
            | lu _ => destruct x eqn:?
            | lr _ => destruct x eqn:?
            | _ => is_var x; destruct x
            end; try discriminate H
        end; try discriminate VW;
      injection H as <- <-; cbn; unfold upd; rewrite ?Nat.eqb_refl; cbn; auto;
      match type of P with
      | _ /\ _ => destruct P as [-> P]
      | ex _ => destruct P as [g0 ->]
      | _ = _ => subst c
      end; cbn; eauto 8.
    all: try (split; [reflexivity|]; apply M; cbn; auto; discriminate).
    all: try (destruct P as [P ->]); eauto 8.
  Qed.

  Hypothesis B : forall g n, lockily f (builder g n).

  Lemma enter_ok t c p val before : enter c = Some p ->
    match c with
    | Proxy (GGet | GSet _ | GDrop | OClone) | LockRead | LockWrite | EqWith _ => True
    | Proxy _ => False
    end -> pc_ok t c p val before.
  Proof. destruct c as [[]| | |]; cbn; intros E; inversion E; subst; cbn; eauto; tauto. Qed.

  Lemma enter_guard_ok t h c p val before : enter_guard h c = Some p ->
    match c with
    | Proxy (GGet | GSet _ | GDrop | OClone) | LockRead | LockWrite | EqWith _ => True
    | Proxy _ => False
    end -> pc_ok t c p val before.
  Proof. destruct h, c as [[]| | |]; cbn; intros E; inversion E; subst; cbn; eauto; tauto. Qed.

  Lemma set_calls_other cs t l u : u <> t -> set_calls cs t l u = cs u.
  Proof. intros N. unfold set_calls. destruct (Nat.eqb_spec u t); congruence. Qed.
  Lemma set_calls_same cs t l : set_calls cs t l t = l.
  Proof. unfold set_calls. now rewrite Nat.eqb_refl. Qed.

  Lemma step_good cs s before t n s' ev th :
    good cs s before -> step builder s (t, n) = Some (s', ev) -> nth_error (threads s) t = Some th ->
    good (calls_after cs t th) s' (before ++ lock_note f cs t th) /\
    forall u c r, In (LRet u c r) (lock_note f cs t th) -> truthful v0 before u c r.
  Proof.
    intros G S N. pose proof G as (O & D & FL & V & T).
    pose proof (T t th N) as [ST CO].
    destruct (step_inv _ _ _ _ _ S) as (th0 & th' & N0 & TS & E). cbn in N0, TS, E.
    rewrite N in N0. injection N0 as <-.
    assert (AS := assemble cs s before t n th s' ev th').
    assert (VK := value_kept cs s before t th s' th').
    unfold tstep in TS. unfold lock_note, calls_after.
    destruct (code_of th) as [[o|g c k]|g p k] eqn:C.
    - (* the end of a piece of user code *)
      split; [|intros ? ? ? []].
      destruct (held th) as [|[g h] rest].
      + destruct (stack th) as [|fr st] eqn:STK; [discriminate TS|].
        injection TS as EF <- _. inversion ST as [|? ? FR ST']; subst.
        apply AS; auto; try (rewrite <- EF; auto; fail).
        * split; cbn; auto. split; [apply FR|]. intros K. now destruct FR.
        * apply VK; auto; try (rewrite <- EF; auto; fail). left. intros; congruence.
      + injection TS as EF <- _. symmetry in EF.
        destruct (release_value (fields s) t g h f) as [RV RF]. rewrite <- EF in RV, RF.
        apply AS; auto.
        * split; auto.
        * congruence.
        * apply VK; auto. left. intros; congruence.
    - (* a call *)
      destruct CO as [LC LK].
      assert (K : exists p l, th' = mkthread (Call g p k) l (stack th) /\ fields s' = fields s /\
                   (g = f -> forall val b, pc_ok t c p val b)).
      { destruct (through_guard c).
        - destruct (take_guard g (held th)) as [[hh l]|]; [|discriminate].
          destruct (enter_guard hh c) as [p|] eqn:EG; [|discriminate].
          injection TS as EF <- _. symmetry in EF. exists p, l. repeat split; auto. intros Z ? ?. eapply enter_guard_ok; [exact EG|exact (LC Z)].
        - destruct (enter c) as [p|] eqn:EG; [|discriminate].
          injection TS as EF <- _. symmetry in EF. exists p, (held th). repeat split; auto. intros Z ? ?. eapply enter_ok; [exact EG|exact (LC Z)]. }
      destruct K as (p & l & -> & EF & PO).
      split.
      + apply AS; auto; try (rewrite EF; auto; fail).
        * split; cbn; auto. split; auto. intros ->. rewrite Nat.eqb_refl.
          exists c, (cs t). rewrite set_calls_same. repeat split; auto using busy_now.
        * apply VK; auto.
          -- now rewrite EF.
          -- intros v. destruct (Nat.eqb g f); reflexivity.
          -- intros. now apply set_calls_other.
          -- left. intros; congruence.
        * destruct (Nat.eqb g f); repeat constructor.
        * intros. now apply set_calls_other.
      + intros u c' r I. destruct (Nat.eqb g f); cbn in I; [destruct I as [I|[]]; discriminate I|destruct I].
    - destruct CO as [LK PO].
      assert (STEP : forall F1 p1, pstep (fields s) t g p = Some (F1, p1) ->
        Some (F1, mkthread (Call g p1 k) (held th) (stack th), @nil bevent) = Some (fields s', th', ev) ->
        good cs s' (before ++ []) /\
        (forall u c r, In (LRet u c r) [] -> truthful v0 before u c r)).
      { intros F1 p1 E1 E2. injection E2 as -> <- _. split; [|intros ? ? ? []].
        assert (NR : forall k0, Call g p k <> Call f (Ret HM RUnit) k0).
        { intros k0 EE. injection EE as -> -> _. discriminate E1. }
        assert (OKT : thread_ok cs (fields s') (before ++ []) t (mkthread (Call g p1 k) (held th) (stack th))).
        { split; cbn; auto. split; auto. intros ->. rewrite app_nil_r.
          destruct (PO eq_refl) as (c & rest & EC & BU & PK). exists c, rest. repeat split; auto.
          eapply pstep_ok; eauto. }
        assert (KEPT : g <> f \/ (exists c val b, pc_ok t c p val b /\ forall v, p <> G_Set v) ->
                 good cs s' (before ++ [])).
        { intros K. destruct (pstep_value _ _ _ _ _ _ E1 K) as [PV PF].
          apply AS; auto. congruence. }
        destruct (Nat.eq_dec g f) as [->|NG]; auto.
        destruct (PO eq_refl) as (c & rest & EC & BU & PK).
        destruct p; try (apply KEPT; right; do 3 eexists; split; [exact PK|discriminate]).
        (* a write *)
        cbn in E1, PK. injection E1 as EF <-. apply AS; auto.
        - rewrite <- EF. unfold upd. rewrite Nat.eqb_refl. exact FL.
        - right. exists t. eexists. exists k, v, rest. rewrite E, (nth_set_same _ _ _ _ N).
          repeat split; auto; [now rewrite EC, PK|]. rewrite <- EF. unfold upd. now rewrite Nat.eqb_refl.
        - right. eauto. }
      destruct p;
        try (destruct (pstep (fields s) t g _) as [[F1 p1]|] eqn:E1 in TS; [|discriminate TS];
             eapply STEP; [exact E1|exact TS]).
      + (* a return *)
        injection TS as EF <- _.
        destruct (Nat.eq_dec g f) as [->|NG].
        * destruct (PO eq_refl) as (c & rest & EC & BU & PK). rewrite EC, Nat.eqb_refl. cbn [tl].
          assert (TR : truthful v0 before t c r /\
                       (forall v, c = Proxy (GSet v) -> value (fields s f) = Some v)).
          { assert (CUR : h = HR \/ h = HM -> (forall v, c <> Proxy (GSet v)) ->
                     value (fields s f) = Some (last_set v0 before)).
            { intros HH NS. eapply (not_setting cs s before t th (match h with HR => KR | _ => KW end)); eauto.
              - unfold owns. rewrite C. destruct HH as [-> | ->]; cbn; auto.
              - destruct HH as [-> | ->]; auto.
              - right. intros v rest0 EE. rewrite EC in EE. injection EE as -> _. now apply (NS v). }
            cbn in PK. destruct c as [[]| | |]; cbn; try contradiction; split; try discriminate;
              destruct PK as (HH & PK); eauto.
            - destruct PK as (v & -> & PV). rewrite CUR in PV by (auto; discriminate). congruence.
            - apply PK.
            - intros v1 E1. injection E1 as <-. apply PK.
            - destruct PK as (v & -> & PV). rewrite CUR in PV by (auto; discriminate). congruence.
            - destruct PK as (v & -> & PV). rewrite CUR in PV by (auto; discriminate). congruence. }
          destruct TR as [TR SV]. split.
          -- apply AS; auto; try (rewrite <- EF; auto; fail).
             ++ split; auto. apply LK.
             ++ assert (VK' : (forall v, c <> Proxy (GSet v)) ->
                          value (fields s' f) = Some (last_set v0 (before ++ [LRet t c r])) \/
                          setting (set_calls cs t rest) s').
                { intros NS. apply VK; auto.
                  - now rewrite <- EF.
                  - intros v. destruct c as [[]| | |]; try reflexivity. now destruct (NS v1).
                  - intros. now apply set_calls_other.
                  - right. intros ? ? EE. rewrite EC in EE. injection EE as -> _. now apply (NS v). }
                destruct c as [[]| | |]; try (apply VK'; discriminate).
                left. rewrite <- EF, last_set_app. cbn. auto.
             ++ intros. now apply set_calls_other.
          -- intros u c' r' [I|[]]. injection I as <- <- <-. exact TR.
        * assert (NN : match cs t with c :: _ => if Nat.eqb g f then [LRet t c r] else [] | [] => [] end = []).
          { destruct (cs t); auto. destruct (Nat.eqb_spec g f); congruence. }
          rewrite NN. split; [|intros ? ? ? []].
          apply AS; auto; try (rewrite <- EF; auto; fail).
          -- split; auto. apply LK.
          -- apply VK; auto; try (rewrite <- EF; auto; fail); [intros; now apply set_calls_other|].
             left. intros k0 EE. congruence.
          -- intros. now apply set_calls_other.
      + (* a builder starts *)
        injection TS as EF <- _. split; [|intros ? ? ? []].
        assert (NG : g <> f).
        { intros ->. destruct (PO eq_refl) as (c & rest & _ & _ & PK). exact PK. }
        apply AS; auto; try (rewrite <- EF; auto; fail).
        * split; cbn; auto. constructor; auto. split; auto.
        * apply VK; auto; try (rewrite <- EF; auto; fail). left. intros; congruence.
  Qed.

  Lemma note_cases cs t th : lock_note f cs t th = [] \/ exists x, lock_note f cs t th = [x].
  Proof.
    unfold lock_note. destruct (code_of th) as [[o|g c k]|g [] k]; auto.
    - destruct (Nat.eqb g f); eauto.
    - destruct (cs t); auto. destruct (Nat.eqb g f); eauto.
  Qed.

  Lemma story_good l : forall cs s before s' ev, good cs s before -> run builder s l = Some (s', ev) ->
    (exists cs', good cs' s' (before ++ lock_story builder f cs s l)) /\
    forall b1 u c r b2, lock_story builder f cs s l = b1 ++ LRet u c r :: b2 ->
      truthful v0 (before ++ b1) u c r.
  Proof.
    induction l as [|[t n] l IH]; intros cs s before s' ev G R.
    - injection R as <- _. cbn. rewrite app_nil_r. split; eauto.
      intros b1 u c r b2 K. destruct b1; discriminate K.
    - cbn [run] in R. cbn [lock_story fst].
      destruct (step builder s (t, n)) as [[s1 e1]|] eqn:S1; [|discriminate].
      destruct (run builder s1 l) as [[s2 e2]|] eqn:R1; [|discriminate]. injection R as <- _.
      destruct (step_inv _ _ _ _ _ S1) as (th & th' & N & TS & E). cbn in N. rewrite N.
      destruct (step_good _ _ _ _ _ _ _ _ G S1 N) as [G1 T1].
      destruct (IH _ _ _ _ _ G1 R1) as [[cs' G2] T2]. split.
      + exists cs'. now rewrite <- app_assoc in G2.
      + intros b1 u c r b2 K. destruct (note_cases cs t th) as [NN|[x NN]]; rewrite NN in *.
        * rewrite app_nil_r in T2. eapply T2; exact K.
        * destruct b1 as [|y b1]; cbn in K; injection K as -> K.
          -- rewrite app_nil_r. apply T1. now left.
          -- rewrite (app_assoc before [y] b1 : before ++ y :: b1 = (before ++ [y]) ++ b1). eapply T2; exact K.
  Qed.

  Lemma start_good vs ps : vs f = Some v0 -> Forall (lockily f) ps -> good nobody_calls (start vs ps) [].
  Proof.
    intros V P. split; [apply start_owned|]. split; [intros g u W; discriminate W|].
    cbn. rewrite V. repeat split; auto.
    - rewrite nth_error_map in H. destruct (nth_error ps t); [|discriminate]. injection H as <-. constructor.
    - rewrite nth_error_map in H. destruct (nth_error ps t) eqn:N; [|discriminate]. injection H as <-. cbn.
      rewrite Forall_forall in P. apply P. eapply nth_error_In; eauto.
  Qed.
End Run.

(** ** Guards *)

Lemma count_held f l : length (filter (a_guard f) l) = cnt KR f (own_held l) + cnt KW f (own_held l).
Proof.
  induction l as [|[g h] l IH]; cbn; auto. unfold a_guard at 1. cbn [fst snd]. rewrite !cnt_app.
  destruct h; cbn; destruct (Nat.eqb g f); cbn; lia.
Qed.

Lemma count_stack f st k : cnt k f (own_held (flat_map fr_held st)) <= cnt k f (own_stack st).
Proof.
  induction st as [|fr st IH]; cbn; auto.
  assert (A : forall a b, own_held (a ++ b) = own_held a ++ own_held b).
  { intros a. induction a as [|[g h] a IHa]; intros b; cbn; auto. now rewrite IHa, app_assoc. }
  rewrite A, !cnt_app. destruct (keqb k KW); [destruct (Nat.eqb (fr_field fr) f)|]; lia.
Qed.

Lemma count_kept f th : length (filter (a_guard f) (kept th)) + cnt KW f (own_code (code_of th)) <=
  cnt KR f (owns th) + cnt KW f (owns th).
Proof.
  unfold kept, owns. rewrite filter_app, app_length, !count_held, !cnt_app.
  pose proof (count_stack f (stack th) KR). pose proof (count_stack f (stack th) KW). lia.
Qed.

Lemma flat_one {A B} (g : A -> list B) l u x y : nth_error l u = Some x -> g x = [y] ->
  (forall t z, nth_error l t = Some z -> t <> u -> g z = []) -> flat_map g l = [y].
Proof.
  revert u. induction l as [|a l IH]; intros u N G O; [destruct u; discriminate|]. cbn.
  destruct u as [|u]; cbn in N.
  - injection N as ->. rewrite G. cbn. f_equal.
    assert (Z : forall z, In z l -> g z = []).
    { intros z I. apply In_nth_error in I. destruct I as [m I]. apply (O (S m)); auto. }
    clear - Z. induction l as [|a l IH]; cbn; auto. rewrite (Z a) by now left. apply IH. intros z I. apply Z. now right.
  - rewrite (O 0 a) by auto. cbn. eapply IH; eauto. intros t z Nt NE. apply (O (S t)); auto.
Qed.

Lemma exclusive builder v0 ps l s ev f h :
  run builder (start v0 ps) l = Some (s, ev) ->
  In (f, h) (guards_on f s) -> h = HM \/ h = HW -> guards_on f s = [(f, h)].
Proof.
  intros R I K.
  pose proof (reach_owned _ _ _ _ _ _ R) as [X A]. pose proof (reach_drained _ _ _ _ _ _ R) as D.
  unfold guards_on in I. apply in_flat_map in I. destruct I as (thu & Iu & I).
  apply In_nth_error in Iu. destruct Iu as [u Nu].
  assert (W : cnt KW f (own_held (kept thu)) >= 1).
  { apply filter_In in I. destruct I as [I _]. assert (J : In (f, KW) (own_held (kept thu))).
    { induction (kept thu) as [|[g x] q IH]; cbn; [destruct I|]. apply in_or_app. destruct I as [E|I].
      - left. injection E as -> ->. destruct K as [-> | ->]; cbn; auto.
      - right. auto. }
    apply cnt_in in J. lia. }
  assert (AP : forall a b, own_held (a ++ b) = own_held a ++ own_held b).
  { intros a. induction a as [|[g x] a IHa]; intros b; cbn; auto. now rewrite IHa, app_assoc. }
  assert (W' : cnt KW f (own_code (code_of thu)) + 1 <= cnt KW f (owns thu)).
  { unfold kept in W. rewrite AP, cnt_app in W. unfold owns. rewrite !cnt_app.
    pose proof (count_stack f (stack thu) KW). lia. }
  pose proof (A u f) as (AW & _ & AR). unfold owns_at in AW, AR. rewrite Nu in AW, AR.
  assert (LW : lw (fields s f) = Some u) by (apply at_most_one; lia).
  rewrite LW, at_most_self in AW.
  assert (LR : lr (fields s f) = []).
  { destruct (lr (fields s f)) as [|y q] eqn:E; auto. exfalso.
    destruct (D f u LW) as (th & p & k & N & C & Y); [rewrite E; discriminate|].
    rewrite Nu in N. injection N as <-. rewrite C in W'. cbn in W'.
    destruct p; try discriminate Y; cbn in W'; rewrite Nat.eqb_refl in W'; lia. }
  rewrite LR in AR. cbn in AR. pose proof (count_kept f thu) as CK.
  unfold guards_on. eapply flat_one; [exact Nu| |].
  - destruct (filter (a_guard f) (kept thu)) as [|x [|y q]]; cbn in *; try lia; try (destruct I; fail).
    destruct I as [-> |[]]. reflexivity.
  - intros t th N NE. pose proof (A t f) as (BW & _ & BR). unfold owns_at in BW, BR. rewrite N, LW in BW. rewrite N, LR in BR.
    rewrite at_most_other in BW by auto. cbn in BR. pose proof (count_kept f th) as C.
    destruct (filter (a_guard f) (kept th)); auto. cbn in C. lia.
Qed.
