(** Proof support for C68: an async locked field among others shows the value last set.
    No model here. *)
From Coq Require Import List Bool Arith Lia.
From Verif Require Import ProxyTypes MultiSpec TaskSpec RegisterSpec RegisterFacts TaskModel TaskStory TaskOwn TaskClean.
Import ListNotations.

(** ** Whoever has the lock for writing has no readers beside it *)

Definition apart (F : cells) : Prop := forall f, lw (F f) = None \/ lr (F f) = [].

Lemma upd_cases F f c g : (g = f /\ upd F f c g = c) \/ (g <> f /\ upd F f c g = F g).
Proof. unfold upd. destruct (Nat.eqb_spec g f); auto. Qed.

Lemma upd_apart F f c : apart F -> lw c = None \/ lr c = [] -> apart (upd F f c).
Proof. intros A H g. destruct (upd_cases F f c g) as [(_ & ->)|(_ & ->)]; auto. Qed.

Lemma free_apart c t w q : free c w = true -> lw (take c t w q) = None \/ lr (take c t w q) = [].
Proof.
  unfold free, take, set_lock. destruct (lw c) eqn:E; [discriminate|]. destruct w; cbn; rewrite ?E; auto.
  destruct (lr c); [auto|discriminate].
Qed.

Lemma release_apart F t f h : apart F -> apart (release F t f h).
Proof.
  intros A. destruct h; cbn; auto; apply upd_apart; auto; cbn; auto.
  destruct (A f) as [E|E]; rewrite E; auto.
Qed.

Lemma request_apart F t f w y n F' p' : apart F -> request F t f w y n = Some (F', p') -> apart F'.
Proof.
  intros A. unfold request. destruct (lq (F f)) as [|x q].
  - destruct (free (F f) w) eqn:E; intros H; injection H as <- _; apply upd_apart; auto using free_apart; apply A.
  - intros H; injection H as <- _; apply upd_apart; auto; apply A.
Qed.

Lemma served_apart F t f w y F' p' : apart F -> served F t f w y = Some (F', p') -> apart F'.
Proof.
  intros A. unfold served. destruct (lq (F f)) as [|[u x] q]; [discriminate|].
  destruct (Nat.eqb u t && free (F f) w) eqn:E; [|discriminate]. apply andb_true_iff in E.
  intros H; injection H as <- _; apply upd_apart; auto. apply free_apart. apply E.
Qed.

Lemma pstep_apart F t ins f p F' p' : apart F -> pstep F t ins f p = Some (F', p') -> apart F'.
Proof.
  intros A H. pose proof (A f) as AF.
  destruct p; cbn in H; try discriminate H; try (eapply request_apart; eassumption);
    try (eapply served_apart; eassumption);
    unfold blocking_read in H;
    try match type of H with context [if ins then _ else _] => destruct ins end;
    try (eapply request_apart; eassumption);
    repeat match type of H with
      | context [match ?x with _ => _ end] =>
          match x with
          | value _ => destruct x eqn:?
          | _ => is_var x; destruct x
          end; try discriminate H
      end;
    injection H as <- _; auto using release_apart;
    apply upd_apart; cbn; auto; destruct AF as [E|E]; rewrite ?E; cbn; auto.
  all: destruct (A g) as [E1|E1]; rewrite ?E1; cbn; auto.
Qed.

Lemma innermost_apart F t c F' gs : apart F -> innermost F t c = Some (F', gs) -> apart F'.
Proof.
  intros A. destruct c as [p|f c p k|]; cbn; [intros H; injection H as <- _; auto| |discriminate].
  destruct (at_await p); [|discriminate]. intros H; injection H as <- _. apply upd_apart; auto. apply A.
Qed.

Section Run.
  Variable inside : tid -> bool.
  Variable builder : fid -> nat -> prog.

  Lemma tstep_apart F t n th F' th' ev : apart F ->
    tstep inside builder F t n th = Some (F', th', ev) -> apart F'.
  Proof.
    intros A. unfold tstep. intros H.
    destruct (code_of th) as [[o|f c k]|f c p k|gs next].
    - destruct (held th) as [|[g h] rest].
      + destruct (stack th); [discriminate|]. now injection H as <- _ _.
      + injection H as <- _ _. now apply release_apart.
    - destruct (through_guard c).
      + destruct (take_guard f (held th)) as [[hh l]|]; [|discriminate].
        destruct (enter_guard hh c); [|discriminate]. now injection H as <- _ _.
      + destruct (enter c); [|discriminate]. now injection H as <- _ _.
    - destruct p;
        try (destruct (pstep F t (inside t) f _) as [[F1 p1]|] eqn:E1 in H; [|discriminate H];
             injection H as <- _ _; eapply pstep_apart; eassumption);
        now injection H as <- _ _.
    - destruct gs as [|[g h] gs].
      + destruct next as [[[f c] k]|]; now injection H as <- _ _.
      + injection H as <- _ _. now apply release_apart.
  Qed.

  Lemma act_apart F t a th F' th' ev : apart F ->
    act_step inside builder F t a th = Some (F', th', ev) -> apart F'.
  Proof.
    intros A.
    assert (DC : forall F1 th1, drop_call F t th = Some (F1, th1) -> apart F1).
    { intros F1 th1. unfold drop_call. destruct (code_of th); try discriminate.
      destruct (innermost _ _ _) as [[F2 gs]|] eqn:E; [|discriminate]. intros H; injection H as <- _.
      eapply innermost_apart; eauto. }
    assert (DF : forall n F1 th1, drop_frame F t th n = Some (F1, th1) -> apart F1).
    { intros n F1 th1. unfold drop_frame. destruct (innermost _ _ _) as [[F2 gs]|] eqn:E; [|discriminate].
      destruct (unwind n (stack th)) as [[[gs' fr] st]|]; [|discriminate]. intros H; injection H as <- _.
      eapply innermost_apart; eauto. }
    destruct a as [n| |[|i]|]; cbn [act_step].
    - apply tstep_apart; auto.
    - destruct (length (stack th)).
      + destruct (drop_call F t th) as [[F1 th1]|] eqn:E; [|discriminate]. intros H; injection H as <- _ _. eauto.
      + destruct (drop_frame F t th n) as [[F1 th1]|] eqn:E; [|discriminate]. intros H; injection H as <- _ _. eauto.
    - destruct (stack th); [discriminate|].
      destruct (drop_call F t th) as [[F1 th1]|] eqn:E; [|discriminate]. intros H; injection H as <- _ _. eauto.
    - destruct (S i <? length (stack th)); [|discriminate].
      destruct (drop_frame F t th i) as [[F1 th1]|] eqn:E; [|discriminate]. intros H; injection H as <- _ _. eauto.
    - destruct (finished th); [discriminate|].
      destruct (innermost _ _ _) as [[F2 gs]|] eqn:E; [|discriminate]. intros H; injection H as <- _ _.
      eapply innermost_apart; eauto.
  Qed.

  Lemma step_apart s a s' ev : step inside builder s a = Some (s', ev) -> apart (fields s) -> apart (fields s').
  Proof.
    intros H A. destruct (step_inv _ _ _ _ _ _ H) as (th & th' & N & T & E). eapply act_apart; eauto.
  Qed.

  Lemma reach_apart v0 ps l s ev : run inside builder (start v0 ps) l = Some (s, ev) -> apart (fields s).
  Proof.
    intros R. eapply (run_ind inside builder (fun s => apart (fields s))); [|exact R|].
    - eauto using step_apart.
    - intros f. left. reflexivity.
  Qed.

  (** ** The locked field *)

  Variable f : fid.
  Variable v0 : nat.

  Definition traps (t : tid) (c : call) : bool := inside t && blocking c.

  Definition pc_ok (t : tid) (c : call) (p : pc) (val : option nat) (before : list lnote) : Prop :=
    match p with
    | LR_Acq | LR_Wait | LR_Map => c = LockRead
    | LW_Acq | LW_Wait | LW_Map => c = LockWrite
    | K_Acq => c = Proxy OClone
    | Q_Acq _ => exists g, c = EqWith g
    | K_Wait | K_Val => c = Proxy OClone /\ inside t = false
    | K_Flag ov => c = Proxy OClone /\ inside t = false /\ meanwhile v0 t c before ov
    | K_Rel ov b => c = Proxy OClone /\ inside t = false /\ meanwhile v0 t c before ov /\ b = true
    | Q_Wait _ | Q_Acq2 _ | Q_Wait2 _ | Q_Cmp _ | Q_Rel2 _ _ | Q_Rel _ =>
        (exists g, c = EqWith g) /\ inside t = false
    | G_Get h => c = Proxy GGet /\ (h = HR \/ h = HM)
    | G_Set v => c = Proxy (GSet v)
    | G_Drop h => c = Proxy GDrop
    | Ret h r =>
        if traps t c then h = HNone /\ r = RPanic
        else
        match c with
        | LockRead => h = HR /\ exists v, r = RGuard v /\ val = Some v
        | LockWrite => h = HM /\ exists v, r = RGuard v /\ val = Some v
        | Proxy GGet => (h = HR \/ h = HM) /\ exists v, r = RVal (Some v) /\ val = Some v
        | Proxy (GSet v) => h = HM /\ r = RUnit /\ val = Some v
        | Proxy GDrop => h = HNone /\ r = RUnit
        | Proxy OClone => h = HNone /\ exists ov, meanwhile v0 t c before ov /\ r = RClone ov true true
        | EqWith _ => h = HNone /\ exists b, r = RBool b
        | Proxy _ => False
        end
    | _ => False
    end.

  Definition frame_ok (fr : frame) : Prop := fr_field fr <> f /\ forall r, lockily f (fr_cont fr r).

  Definition task_ok (F : cells) (before : list lnote) (t : tid) (th : task) : Prop :=
    Forall frame_ok (stack th) /\
    match code_of th with
    | User p => lockily f p
    | Call g c p k =>
        (forall r, lockily f (k r)) /\
        (g = f -> busy_with t c before /\ pc_ok t c p (value (F f)) before)
    | Leave _ None => True
    | Leave _ (Some (g, c, k)) =>
        (forall r, lockily f (k r)) /\ (g = f -> c = LockRead \/ c = LockWrite)
    end.

  (** A write has been made but its call has not returned yet. *)
  Definition setting (s : sys) : Prop :=
    exists u th k v, nth_error (tasks s) u = Some th /\
      code_of th = Call f (Proxy (GSet v)) (Ret HM RUnit) k /\ value (fields s f) = Some v.

  Definition good (s : sys) (before : list lnote) : Prop :=
    owned s /\ apart (fields s) /\ flag (fields s f) = true /\
    (value (fields s f) = Some (last_set v0 before) \/ setting s) /\
    forall t th, nth_error (tasks s) t = Some th -> task_ok (fields s) before t th.

  Lemma pc_ok_more t c p val a b : Forall (fun x => who x <> t) b ->
    pc_ok t c p val a -> pc_ok t c p val (a ++ b).
  Proof.
    intros H. destruct p; cbn; auto; try (intros; intuition eauto using meanwhile_more; fail).
    destruct (traps t c); auto.
    destruct c as [[]| | |]; auto; intros (E & ov & M & R); eauto using meanwhile_more.
  Qed.

  Lemma one_writer s t th u thu k :
    owned s -> apart (fields s) -> nth_error (tasks s) t = Some th -> nth_error (tasks s) u = Some thu ->
    u <> t -> In (f, KW) (own_code (code_of th)) -> k = KR \/ k = KW -> ~ In (f, k) (owns thu).
  Proof.
    intros A D N Nu NE I K J.
    pose proof (A t f) as (W & _ & _). pose proof (A u f) as (Wu & Ru & _).
    unfold owns_at in W, Wu, Ru. rewrite N in W. rewrite Nu in Wu, Ru.
    assert (E : lw (fields s f) = Some t).
    { apply at_most_one. rewrite <- W. unfold owns. rewrite cnt_app. apply cnt_in in I. lia. }
    apply cnt_in in J. destruct K as [-> | ->].
    - destruct (D f) as [Z|Z]; [congruence|]. rewrite Z in Ru. cbn in Ru. lia.
    - rewrite E in Wu. rewrite at_most_other in Wu by auto. lia.
  Qed.

  Lemma pc_ok_val t c p val val' before : pc_ok t c p val before ->
    val' = val \/ (~ In (f, KR) (own_pc f p) /\ ~ In (f, KW) (own_pc f p)) ->
    pc_ok t c p val' before.
  Proof.
    intros H [-> |[NR NW]]; auto. destruct p; cbn in *; auto. destruct (traps t c); auto.
    destruct c as [[]| | |]; auto; destruct H as (E & H);
      try (destruct E as [E|E]); subst h; cbn in *; exfalso; auto.
  Qed.

  Lemma others_ok F before u thu F' new :
    task_ok F before u thu -> Forall (fun x => who x <> u) new ->
    value (F' f) = value (F f) \/ (~ In (f, KR) (owns thu) /\ ~ In (f, KW) (owns thu)) ->
    task_ok F' (before ++ new) u thu.
  Proof.
    intros [ST C] N V. split; auto. destruct (code_of thu) as [p|g c p k|gs nx] eqn:CE; auto.
    destruct C as [K P]. split; auto. intros G. destruct (P G) as (B & PO).
    split; auto; [now apply busy_more|].
    apply pc_ok_more; auto. eapply pc_ok_val; eauto.
    destruct V as [V|[V1 V2]]; auto. right. unfold owns in V1, V2. rewrite CE in V1, V2. subst g. cbn in V1, V2.
    split; intros I; [apply V1|apply V2]; apply in_or_app; auto.
  Qed.

  Lemma upd_same_values F g c : value c = value (F g) -> flag c = flag (F g) -> same_values F (upd F g c).
  Proof. intros V L x. destruct (upd_cases F g c x) as [(-> & ->)|(_ & ->)]; auto. Qed.

  Lemma take_value c t w q : value (take c t w q) = value c /\ flag (take c t w q) = flag c.
  Proof. unfold take. destruct w; auto. Qed.

  Lemma request_same F t g w y n F' p' : request F t g w y n = Some (F', p') ->
    same_values F F' /\ (p' = y \/ p' = n).
  Proof.
    unfold request. destruct (lq (F g)).
    - destruct (free (F g) w); intros H; injection H as <- <-; split; auto;
        apply upd_same_values; auto; apply take_value.
    - intros H; injection H as <- <-; split; auto. apply upd_same_values; auto.
  Qed.

  Lemma served_same F t g w y F' p' : served F t g w y = Some (F', p') -> same_values F F' /\ p' = y.
  Proof.
    unfold served. destruct (lq (F g)) as [|[u x] q]; [discriminate|].
    destruct (Nat.eqb u t && free (F g) w); [|discriminate].
    intros H; injection H as <- <-; split; auto. apply upd_same_values; apply take_value.
  Qed.

  Lemma pstep_value F t ins g p F' p' : pstep F t ins g p = Some (F', p') ->
    g <> f \/ (exists c val before, pc_ok t c p val before /\ forall v, p <> G_Set v) ->
    value (F' f) = value (F f) /\ flag (F' f) = flag (F f).
  Proof.
    intros H K.
    destruct p; cbn in H; try discriminate H; unfold blocking_read in H;
      try match type of H with context [if ins then _ else _] => destruct ins end;
      try (apply request_same in H; apply H); try (apply served_same in H; apply H);
      repeat match type of H with
        | context [match ?x with _ => _ end] =>
            match x with
            | value _ => destruct x eqn:?
            | _ => is_var x; destruct x
            end; try discriminate H
        end;
      injection H as <- <-;
      try (apply release_same);
      try match goal with |- context [upd F ?a ?c f] =>
            destruct (upd_cases F a c f) as [(EG & EU)|(EG & EU)]; rewrite EU; cbn
          end; auto; subst; auto;
      destruct K as [K|(c0 & val & before & PO & NS)]; try congruence; cbn in PO; try tauto;
      exfalso; eapply NS; reflexivity.
  Qed.

  Lemma assemble s before t a th s' ev th' new :
    good s before -> step inside builder s (t, a) = Some (s', ev) ->
    nth_error (tasks s) t = Some th -> tasks s' = set_nth t (tasks s) th' ->
    task_ok (fields s') (before ++ new) t th' ->
    flag (fields s' f) = true ->
    (value (fields s' f) = Some (last_set v0 (before ++ new)) \/ setting s') ->
    value (fields s' f) = value (fields s f) \/ (exists v c k, code_of th = Call f c (G_Set v) k) ->
    Forall (fun x => who x = t) new ->
    good s' (before ++ new).
  Proof.
    intros (O & D & FL & V & T) S N E OK FL' V' VC NW.
    split; [eapply step_owned; eauto|]. split; [eapply step_apart; eauto|].
    split; auto. split; auto. intros u thu Nu. rewrite E in Nu.
    destruct (Nat.eq_dec t u) as [<-|NE].
    - rewrite (nth_set_same _ _ _ _ N) in Nu. injection Nu as <-. auto.
    - rewrite (nth_set_other _ _ _ _ NE) in Nu. eapply others_ok; eauto.
      + eapply Forall_impl; [|exact NW]. cbn. congruence.
      + destruct VC as [VC|(v & c & k & VC)]; auto. right.
        assert (W : forall kd, kd = KR \/ kd = KW -> ~ In (f, kd) (owns thu)); auto.
        intros kd K. apply (one_writer s t th u thu kd O D N Nu); auto; rewrite VC; cbn; auto.
  Qed.

  Lemma value_kept s before t th s' th' new :
    (value (fields s f) = Some (last_set v0 before) \/ setting s) ->
    nth_error (tasks s) t = Some th -> tasks s' = set_nth t (tasks s) th' ->
    value (fields s' f) = value (fields s f) ->
    (forall v, last_set v new = v) ->
    (forall v k, code_of th <> Call f (Proxy (GSet v)) (Ret HM RUnit) k) ->
    value (fields s' f) = Some (last_set v0 (before ++ new)) \/ setting s'.
  Proof.
    intros V N E VE L NS. destruct V as [V|(u & thu & k & v & Nu & Cu & Vu)].
    - left. rewrite VE, V, last_set_app, L. reflexivity.
    - right. assert (NE : t <> u).
      { intros <-. rewrite N in Nu. injection Nu as <-. now apply (NS v k). }
      exists u, thu, k, v. rewrite E, (nth_set_other _ _ _ _ NE), VE by auto. auto.
  Qed.

  Lemma not_setting s before t th kd : good s before ->
    nth_error (tasks s) t = Some th -> In (f, kd) (owns th) -> kd = KR \/ kd = KW ->
    (forall v k, code_of th <> Call f (Proxy (GSet v)) (Ret HM RUnit) k) ->
    value (fields s f) = Some (last_set v0 before).
  Proof.
    intros (O & D & FL & V & T) N I K NS. destruct V as [V|(u & thu & k & v & Nu & Cu & Vu)]; auto.
    exfalso. assert (NE : t <> u).
    { intros <-. rewrite N in Nu. injection Nu as <-. now apply (NS v k). }
    refine (one_writer s u thu t th kd O D Nu N NE _ K I).
    rewrite Cu. cbn. auto.
  Qed.

  (** Nor when nobody has the lock for writing. *)
  Lemma at_rest s before : good s before -> lw (fields s f) = None ->
    value (fields s f) = Some (last_set v0 before).
  Proof.
    intros (A & D & FL & V & T) W. destruct V as [V|(u & thu & k & v & Nu & Cu & Vu)]; auto.
    exfalso. pose proof (A u f) as (AW & _ & _). unfold owns_at in AW. rewrite Nu, W in AW.
    unfold owns in AW. rewrite Cu in AW. cbn in AW. rewrite Nat.eqb_refl in AW. discriminate AW.
  Qed.

  Lemma a_value s before : good s before -> exists v, value (fields s f) = Some v.
  Proof. intros (_ & _ & _ & [V|(u & thu & k & v & _ & _ & V)] & _); eauto. Qed.

  (** A step of a call on the field itself. *)
  Lemma pstep_ok s before t th c p k F' p' :
    good s before -> nth_error (tasks s) t = Some th -> code_of th = Call f c p k ->
    busy_with t c before -> pc_ok t c p (value (fields s f)) before ->
    pstep (fields s) t (inside t) f p = Some (F', p') ->
    pc_ok t c p' (value (F' f)) before.
  Proof.
    intros G N C B P H. destruct (a_value _ _ G) as [w VW].
    assert (FL : flag (fields s f) = true) by apply G.
    assert (M : In (f, KR) (own_pc f p) -> (forall r, p <> Ret HM r) ->
                meanwhile v0 t c before (value (fields s f))).
    { intros I NR. exists before, []. rewrite app_nil_r. repeat split; auto.
      eapply (not_setting s before t th KR); eauto.
      - unfold owns. rewrite C. cbn. apply in_or_app. auto.
      - intros v k0 E. rewrite C in E. injection E as _ -> _. now apply (NR RUnit). }
    destruct p; cbn in P, H; try contradiction; try discriminate H; unfold blocking_read in H;
      try match type of H with context [if inside t then _ else _] => destruct (inside t) eqn:INS end;
      try (apply request_same in H; destruct H as [_ [-> | ->]]);
      try (apply served_same in H; destruct H as [_ ->]);
      repeat match type of H with
        | context [match ?x with _ => _ end] =>
            match x with
            | value _ => destruct x eqn:?
            | _ => is_var x; destruct x
            end; try discriminate H
        end; try discriminate VW;
      try (injection H as <- <-); cbn; unfold upd; rewrite ?Nat.eqb_refl; cbn; auto;
      repeat match type of P with
      | _ = _ /\ _ => destruct P as [-> P]
      | (ex _) /\ _ => destruct P as [[g0 ->] P]
      | _ /\ _ => destruct P as [? P]
      | ex _ => destruct P as [g0 ->]
      | _ = _ => subst c
      end; unfold traps; cbn; rewrite ?andb_false_r; rewrite ?INS; cbn;
      repeat match goal with H : inside t = false |- _ => rewrite H; clear H end; cbn; eauto 8.
    all: try (split; [reflexivity|split; [reflexivity|]]; apply M; cbn; auto; discriminate).
    subst b. eauto 8.
  Qed.

  Hypothesis B : forall g n, lockily f (builder g n).

  Lemma enter_ok t c p val before : enter c = Some p ->
    match c with
    | Proxy (GGet | GSet _ | GDrop | OClone) | LockRead | LockWrite | EqWith _ => True
    | Proxy _ => False
    end -> pc_ok t c p val before.
  Proof. destruct c as [[]| | |]; cbn; intros E; inversion E; subst; cbn; eauto; tauto. Qed.

  Lemma enter_guard_ok t h c p val before : enter_guard h c = Some p ->
    match c with
    | Proxy (GGet | GSet _ | GDrop | OClone) | LockRead | LockWrite | EqWith _ => True
    | Proxy _ => False
    end -> pc_ok t c p val before.
  Proof. destruct h, c as [[]| | |]; cbn; intros E; inversion E; subst; cbn; eauto; tauto. Qed.

  Lemma unwind_ok n : forall st gs fr st', unwind n st = Some (gs, fr, st') -> Forall frame_ok st ->
    frame_ok fr /\ Forall frame_ok st'.
  Proof.
    induction n as [|n IH]; intros [|fr0 st] gs fr st' H K; try discriminate; cbn in H; inversion K; subst.
    - injection H as <- <- <-. auto.
    - destruct (unwind n st) as [[[gs0 fr1] st1]|] eqn:E; [|discriminate]. injection H as <- <- <-. eauto.
  Qed.

  Lemma at_await_ok t c p val before : pc_ok t c p val before -> at_await p <> None ->
    c = LockRead \/ c = LockWrite.
  Proof. destruct p; cbn; auto; tauto. Qed.

  (** Futures that are dropped. *)
  Lemma act_ok s before t a th th' F' ev :
    good s before -> nth_error (tasks s) t = Some th ->
    act_step inside builder (fields s) t a th = Some (F', th', ev) -> (forall n, a <> Go n) ->
    ev = [] /\ same_values (fields s) F' /\ task_ok F' before t th' /\
    (forall v k, code_of th <> Call f (Proxy (GSet v)) (Ret HM RUnit) k).
  Proof.
    intros (O & D & FL & V & T) N TS NG. pose proof (T t th N) as [ST CO].
    assert (IN : forall F1 gs, innermost (fields s) t (code_of th) = Some (F1, gs) ->
              same_values (fields s) F1 /\
              forall v k, code_of th <> Call f (Proxy (GSet v)) (Ret HM RUnit) k).
    { intros F1 gs H. split; [eapply innermost_same; eauto|]. intros v k EC. rewrite EC in H. discriminate H. }
    assert (DC : forall F1 th1, drop_call (fields s) t th = Some (F1, th1) ->
              same_values (fields s) F1 /\ task_ok F1 before t th1 /\
              forall v k, code_of th <> Call f (Proxy (GSet v)) (Ret HM RUnit) k).
    { intros F1 th1. unfold drop_call. destruct (code_of th) as [|g c p k|] eqn:C; try discriminate.
      destruct (innermost _ _ _) as [[F2 gs]|] eqn:E; [|discriminate]. intros H; injection H as <- <-.
      destruct (IN _ _ eq_refl) as [SV NS]. split; auto. split; auto. destruct CO as [LK PO].
      split; cbn; auto. split; auto. intros K. destruct (PO K) as [_ PK].
      eapply at_await_ok; [exact PK|]. cbn in E. destruct (at_await p); discriminate. }
    assert (DF : forall n F1 th1, drop_frame (fields s) t th n = Some (F1, th1) ->
              same_values (fields s) F1 /\ task_ok F1 before t th1 /\
              forall v k, code_of th <> Call f (Proxy (GSet v)) (Ret HM RUnit) k).
    { intros n F1 th1. unfold drop_frame. destruct (innermost _ _ _) as [[F2 gs]|] eqn:E; [|discriminate].
      destruct (unwind n (stack th)) as [[[gs' fr] st]|] eqn:U; [|discriminate]. intros H; injection H as <- <-.
      destruct (IN _ _ eq_refl) as [SV NS]. destruct (unwind_ok _ _ _ _ _ U ST) as [[FR FK] ST'].
      split; auto. split; auto. split; cbn; auto. split; auto. intros K. contradiction. }
    destruct a as [n| |[|i]|]; cbn [act_step] in TS.
    - now destruct (NG n).
    - destruct (length (stack th)).
      + destruct (drop_call _ t th) as [[F1 th1]|] eqn:E; [|discriminate]. injection TS as <- <- <-.
        destruct (DC _ _ eq_refl) as (? & ? & ?). auto.
      + destruct (drop_frame _ t th n) as [[F1 th1]|] eqn:E; [|discriminate]. injection TS as <- <- <-.
        destruct (DF _ _ _ E) as (? & ? & ?). auto.
    - destruct (stack th) eqn:STK; [discriminate|]. rewrite <- STK in *.
      destruct (drop_call _ t th) as [[F1 th1]|] eqn:E; [|discriminate]. injection TS as <- <- <-.
      destruct (DC _ _ eq_refl) as (? & ? & ?). auto.
    - destruct (S i <? length (stack th)); [|discriminate].
      destruct (drop_frame _ t th i) as [[F1 th1]|] eqn:E; [|discriminate]. injection TS as <- <- <-.
      destruct (DF _ _ _ E) as (? & ? & ?). auto.
    - destruct (finished th); [discriminate|].
      destruct (innermost _ _ _) as [[F2 gs]|] eqn:E; [|discriminate]. injection TS as <- <- <-.
      destruct (IN _ _ eq_refl) as [SV NS]. repeat split; auto; try apply SV. constructor.
  Qed.

  Definition note_of (t : tid) (a : act) (th : task) (ev : list tevent) : list lnote :=
    lock_call f t a th ++ flat_map (lock_ret f) ev.

  Lemma step_good s before t a s' ev th :
    good s before -> step inside builder s (t, a) = Some (s', ev) -> nth_error (tasks s) t = Some th ->
    good s' (before ++ note_of t a th ev) /\
    (forall u c r, In (LRet u c r) (note_of t a th ev) -> truthful_async inside v0 before u c r) /\
    (note_of t a th ev = [] \/ exists x, note_of t a th ev = [x]).
  Proof.
    intros G S N. pose proof G as (O & D & FL & V & T).
    pose proof (T t th N) as [ST CO].
    destruct (step_inv _ _ _ _ _ _ S) as (th0 & th' & N0 & TS & E). cbn in N0, TS, E.
    rewrite N in N0. injection N0 as <-.
    assert (AS := assemble s before t a th s' ev th').
    assert (VK := value_kept s before t th s' th').
    unfold note_of, lock_call.
    destruct a as [n| |i|].
    2-4: (destruct (act_ok s before t _ th th' (fields s') ev G N TS) as (-> & SV & OK & NS); [discriminate|];
          cbn; (split; [|split; [intros ? ? ? []|auto]]);
          destruct (SV f) as [SVv SVf];
          apply AS; auto; [now rewrite app_nil_r|congruence]).
    cbn [act_step] in TS. unfold tstep in TS.
    destruct (code_of th) as [[o|g c k]|g c p k|gs nx] eqn:C.
    - (* the end of a piece of user code *)
      destruct (held th) as [|[g h] rest].
      + destruct (stack th) as [|fr st] eqn:STK; [discriminate TS|].
        injection TS as EF <- <-. cbn. (split; [|split; [intros ? ? ? []|auto]]). inversion ST as [|? ? FR ST']; subst.
        apply AS; auto; try (rewrite <- EF; auto; fail).
        * split; cbn; auto. split; [apply FR|]. intros K. now destruct FR.
        * apply VK; auto; try (rewrite <- EF; auto; fail). intros; congruence.
      + injection TS as EF <- <-. cbn. (split; [|split; [intros ? ? ? []|auto]]). symmetry in EF.
        destruct (release_same (fields s) t g h f) as [RV RF]. rewrite <- EF in RV, RF.
        apply AS; auto.
        * split; auto.
        * congruence.
        * apply VK; auto. intros; congruence.
    - (* a call *)
      destruct CO as [LC LK].
      assert (K : exists p l, th' = mktask (Call g c p k) l (stack th) /\ fields s' = fields s /\ ev = [] /\
                   (g = f -> forall val b, pc_ok t c p val b)).
      { destruct (through_guard c).
        - destruct (take_guard g (held th)) as [[hh l]|]; [|discriminate].
          destruct (enter_guard hh c) as [p|] eqn:EG; [|discriminate].
          injection TS as EF <- <-. symmetry in EF. exists p, l. repeat split; auto. intros Z ? ?. eapply enter_guard_ok; [exact EG|exact (LC Z)].
        - destruct (enter c) as [p|] eqn:EG; [|discriminate].
          injection TS as EF <- <-. symmetry in EF. exists p, (held th). repeat split; auto. intros Z ? ?. eapply enter_ok; [exact EG|exact (LC Z)]. }
      destruct K as (p & l & -> & EF & -> & PO). cbn [flat_map]. rewrite app_nil_r.
      split; [|split].
      + apply AS; auto; try (rewrite EF; auto; fail).
        * split; cbn; auto. split; auto. intros ->. rewrite Nat.eqb_refl.
          split; auto using busy_now.
        * apply VK; auto.
          -- now rewrite EF.
          -- intros v. destruct (Nat.eqb g f); reflexivity.
          -- intros; congruence.
        * destruct (Nat.eqb g f); repeat constructor.
      + intros u c' r I. destruct (Nat.eqb g f); cbn in I; [destruct I as [I|[]]; discriminate I|destruct I].
      + destruct (Nat.eqb g f); eauto.
    - destruct CO as [LK PO].
      assert (STEP : forall F1 p1, pstep (fields s) t (inside t) g p = Some (F1, p1) ->
        Some (F1, mktask (Call g c p1 k) (held th) (stack th), @nil tevent) = Some (fields s', th', ev) ->
        good s' (before ++ [] ++ flat_map (lock_ret f) ev) /\
        (forall u c r, In (LRet u c r) ([] ++ flat_map (lock_ret f) ev) -> truthful_async inside v0 before u c r) /\
        ([] ++ flat_map (lock_ret f) ev = [] \/ exists x, [] ++ flat_map (lock_ret f) ev = [x])).
      { intros F1 p1 E1 E2. injection E2 as -> <- <-. cbn [app flat_map]. split; [|split; [intros ? ? ? []|auto]].
        assert (NR : forall v k0, Call g c p k <> Call f (Proxy (GSet v)) (Ret HM RUnit) k0).
        { intros v k0 EE. injection EE as -> _ -> _. discriminate E1. }
        assert (OKT : task_ok (fields s') (before ++ []) t (mktask (Call g c p1 k) (held th) (stack th))).
        { split; cbn; auto. split; auto. intros ->. rewrite app_nil_r.
          destruct (PO eq_refl) as (BU & PK). split; auto.
          eapply pstep_ok; eauto. }
        assert (KEPT : g <> f \/ (exists c val b, pc_ok t c p val b /\ forall v, p <> G_Set v) ->
                 good s' (before ++ [])).
        { intros K. destruct (pstep_value _ _ _ _ _ _ _ E1 K) as [PV PF].
          apply AS; auto. congruence. }
        destruct (Nat.eq_dec g f) as [->|NG]; auto.
        destruct (PO eq_refl) as (BU & PK).
        destruct p; try (apply KEPT; right; do 3 eexists; split; [exact PK|discriminate]).
        (* a write *)
        cbn in E1, PK. injection E1 as EF <-. apply AS; auto.
        - rewrite <- EF. unfold upd. rewrite Nat.eqb_refl. exact FL.
        - right. exists t. eexists. exists k, v. rewrite E, (nth_set_same _ _ _ _ N).
          repeat split; auto; [now rewrite PK|]. rewrite <- EF. unfold upd. now rewrite Nat.eqb_refl.
        - right. eauto. }
      destruct p;
        try (destruct (pstep (fields s) t _ g _) as [[F1 p1]|] eqn:E1 in TS; [|discriminate TS];
             eapply STEP; [exact E1|exact TS]).
      + (* a return *)
        injection TS as EF <- <-. cbn [flat_map lock_ret app]. rewrite app_nil_r.
        destruct (Nat.eqb_spec g f) as [->|NG].
        * destruct (PO eq_refl) as (BU & PK).
          assert (CUR : h = HR \/ h = HM -> (forall v, c <> Proxy (GSet v)) ->
                     value (fields s f) = Some (last_set v0 before)).
          { intros HH NS. eapply (not_setting s before t th (match h with HR => KR | _ => KW end)); eauto.
            - unfold owns. rewrite C. destruct HH as [-> | ->]; cbn; auto.
            - destruct HH as [-> | ->]; auto.
            - intros v k0 EE. rewrite C in EE. injection EE as -> _ _. now apply (NS v). }
          assert (TR : truthful_async inside v0 before t c r /\
                       (forall v, c = Proxy (GSet v) -> value (fields s f) = Some v)).
          { cbn in PK. unfold truthful_async. unfold traps in PK. destruct (inside t && blocking c) eqn:TRP.
            - destruct PK as [_ ->]. split; auto. intros v ->. rewrite andb_false_r in TRP. discriminate TRP.
            - destruct c as [[]| | |]; cbn; try contradiction; split; try discriminate;
              destruct PK as (HH & PK); eauto; try left.
              + destruct PK as (v & -> & PV). rewrite CUR in PV by (auto; discriminate). congruence.
              + apply PK.
              + intros v1 E1. injection E1 as <-. apply PK.
              + destruct PK as (v & -> & PV). rewrite CUR in PV by (auto; discriminate). congruence.
              + destruct PK as (v & -> & PV). rewrite CUR in PV by (auto; discriminate). congruence. }
          destruct TR as [TR SV]. split; [|split; eauto].
          -- apply AS; auto; try (rewrite <- EF; auto; fail).
             ++ split; auto. apply LK.
             ++ assert (VK' : (forall v, c <> Proxy (GSet v)) ->
                          value (fields s' f) = Some (last_set v0 (before ++ [LRet t c r])) \/
                          setting s').
                { intros NS. apply VK; auto.
                  - now rewrite <- EF.
                  - intros v. destruct c as [[]| | |]; try reflexivity. now destruct (NS v1).
                  - intros v k0 EE. injection EE as -> _ _. now apply (NS v). }
                destruct c as [[]| | |]; try (apply VK'; discriminate).
                left. rewrite <- EF, last_set_app. cbn. auto.
          -- intros u c' r' [I|[]]. injection I as <- <- <-. exact TR.
        * split; [|split; [intros ? ? ? []|auto]].
          apply AS; auto; try (rewrite <- EF; auto; fail).
          -- split; auto. apply LK.
          -- apply VK; auto; try (rewrite <- EF; auto; fail).
             intros v k0 EE. congruence.
      + (* a builder starts *)
        injection TS as EF <- <-. cbn. split; [|split; [intros ? ? ? []|auto]].
        assert (NG : g <> f).
        { intros ->. destruct (PO eq_refl) as (_ & PK). exact PK. }
        apply AS; auto; try (rewrite <- EF; auto; fail).
        * split; cbn; auto. constructor; auto. split; auto.
        * apply VK; auto; try (rewrite <- EF; auto; fail). intros; congruence.
    - (* dropped futures *)
      destruct gs as [|[g h] gs].
      + destruct nx as [[[g c] k]|].
        * injection TS as EF <- <-. cbn [flat_map lock_ret app]. rewrite app_nil_r. destruct CO as [LK LC].
          assert (NGS : forall v, g = f -> c <> Proxy (GSet v)).
          { intros v K ->. destruct (LC K); discriminate. }
          split; [|split].
          -- apply AS; auto; try (rewrite <- EF; auto; fail).
             ++ split; cbn; auto.
             ++ apply VK; auto; try (rewrite <- EF; auto; fail).
                ** intros v. destruct (Nat.eqb_spec g f) as [K|]; auto.
                   destruct (LC K) as [-> | ->]; reflexivity.
                ** intros; congruence.
             ++ destruct (Nat.eqb g f); repeat constructor.
          -- intros u c' r' I. destruct (Nat.eqb_spec g f) as [K|]; [|destruct I].
             destruct I as [I|[]]. injection I as <- <- <-. unfold truthful_async.
             destruct (LC K) as [-> | ->]; cbn; rewrite andb_false_r; auto.
          -- destruct (Nat.eqb g f); eauto.
        * injection TS as EF <- <-. cbn. split; [|split; [intros ? ? ? []|auto]].
          apply AS; auto; try (rewrite <- EF; auto; fail).
          -- split; cbn; auto.
          -- apply VK; auto; try (rewrite <- EF; auto; fail). intros; congruence.
      + injection TS as EF <- <-. cbn. split; [|split; [intros ? ? ? []|auto]]. symmetry in EF.
        destruct (release_same (fields s) t g h f) as [RV RF]. rewrite <- EF in RV, RF.
        apply AS; auto.
        * split; auto.
        * congruence.
        * apply VK; auto. intros; congruence.
  Qed.

  Lemma story_good l : forall s before s' ev, good s before -> run inside builder s l = Some (s', ev) ->
    good s' (before ++ lock_story inside builder f s l) /\
    forall b1 u c r b2, lock_story inside builder f s l = b1 ++ LRet u c r :: b2 ->
      truthful_async inside v0 (before ++ b1) u c r.
  Proof.
    induction l as [|[t a] l IH]; intros s before s' ev G R.
    - injection R as <- _. cbn. rewrite app_nil_r. split; auto.
      intros b1 u c r b2 K. destruct b1; discriminate K.
    - cbn [run] in R. cbn [lock_story fst snd].
      destruct (step inside builder s (t, a)) as [[s1 e1]|] eqn:S1; [|discriminate].
      destruct (run inside builder s1 l) as [[s2 e2]|] eqn:R1; [|discriminate]. injection R as <- _.
      destruct (step_inv _ _ _ _ _ _ S1) as (th & th' & N & TS & E). cbn in N. rewrite N.
      destruct (step_good _ _ _ _ _ _ _ G S1 N) as (G1 & T1 & NC).
      destruct (IH _ _ _ _ G1 R1) as [G2 T2]. rewrite !app_assoc. rewrite <- (app_assoc before).
      fold (note_of t a th e1). split.
      + exact G2.
      + intros b1 u c r b2 K. destruct NC as [NN|[x NN]]; rewrite NN in *.
        * rewrite app_nil_r in T2. eapply T2; exact K.
        * destruct b1 as [|y b1]; cbn in K; injection K as -> K.
          -- rewrite app_nil_r. apply T1. now left.
          -- rewrite (app_assoc before [y] b1 : before ++ y :: b1 = (before ++ [y]) ++ b1). eapply T2; exact K.
  Qed.

  Lemma start_good vs ps : vs f = Some v0 -> Forall (lockily f) ps -> good (start vs ps) [].
  Proof.
    intros V P. split; [apply start_owned|]. split; [intros g; left; reflexivity|].
    cbn. rewrite V. repeat split; auto.
    - rewrite nth_error_map in H. destruct (nth_error ps t); [|discriminate]. injection H as <-. constructor.
    - rewrite nth_error_map in H. destruct (nth_error ps t) eqn:N; [|discriminate]. injection H as <-. cbn.
      rewrite Forall_forall in P. apply P. eapply nth_error_In; eauto.
  Qed.
End Run.

(** ** Guards *)

Lemma count_held f l : length (filter (a_guard f) l) = cnt KR f (own_held l) + cnt KW f (own_held l).
Proof.
  induction l as [|[g h] l IH]; cbn; auto. unfold a_guard at 1. cbn [fst snd]. rewrite !cnt_app.
  destruct h; cbn; destruct (Nat.eqb g f); cbn; lia.
Qed.

Lemma count_stack f st k : cnt k f (own_held (flat_map fr_held st)) <= cnt k f (own_stack st).
Proof.
  induction st as [|fr st IH]; cbn; auto.
  rewrite own_held_app, !cnt_app. destruct (keqb k KW); [destruct (Nat.eqb (fr_field fr) f)|]; lia.
Qed.

Lemma count_kept f th k : cnt k f (own_held (kept th)) <= cnt k f (owns th).
Proof.
  unfold kept, owns. rewrite !own_held_app, !cnt_app. pose proof (count_stack f (stack th) k).
  destruct (code_of th); cbn; lia.
Qed.

Lemma flat_one {A B} (g : A -> list B) l u x y : nth_error l u = Some x -> g x = [y] ->
  (forall t z, nth_error l t = Some z -> t <> u -> g z = []) -> flat_map g l = [y].
Proof.
  revert u. induction l as [|a l IH]; intros u N G O; [destruct u; discriminate|]. cbn.
  destruct u as [|u]; cbn in N.
  - injection N as ->. rewrite G. cbn. f_equal.
    assert (Z : forall z, In z l -> g z = []).
    { intros z I. apply In_nth_error in I. destruct I as [m I]. apply (O (S m)); auto. }
    clear - Z. induction l as [|a l IH]; cbn; auto. rewrite (Z a) by now left. apply IH. intros z I. apply Z. now right.
  - rewrite (O 0 a) by auto. cbn. eapply IH; eauto. intros t z Nt NE. apply (O (S t)); auto.
Qed.

Lemma exclusive inside builder v0 ps l s ev f h :
  run inside builder (start v0 ps) l = Some (s, ev) ->
  In (f, h) (guards_on f s) -> h = HM \/ h = HW -> guards_on f s = [(f, h)].
Proof.
  intros R I K.
  pose proof (reach_owned _ _ _ _ _ _ _ R) as A. pose proof (reach_apart _ _ _ _ _ _ _ R) as D.
  unfold guards_on in I. apply in_flat_map in I. destruct I as (thu & Iu & I).
  apply In_nth_error in Iu. destruct Iu as [u Nu].
  assert (W : cnt KW f (own_held (kept thu)) >= 1).
  { apply filter_In in I. destruct I as [I _]. assert (J : In (f, KW) (own_held (kept thu))).
    { induction (kept thu) as [|[g x] q IH]; cbn; [destruct I|]. apply in_or_app. destruct I as [E|I].
      - left. injection E as -> ->. destruct K as [-> | ->]; cbn; auto.
      - right. auto. }
    apply cnt_in in J. lia. }
  pose proof (count_kept f thu KW) as CW. pose proof (count_kept f thu KR) as CR.
  pose proof (A u f) as (AW & AR & _). unfold owns_at in AW, AR. rewrite Nu in AW, AR.
  assert (LW : lw (fields s f) = Some u) by (apply at_most_one; lia).
  rewrite LW, at_most_self in AW.
  assert (LR : lr (fields s f) = []) by (destruct (D f); congruence).
  rewrite LR in AR. cbn in AR.
  unfold guards_on. eapply flat_one; [exact Nu| |].
  - pose proof (count_held f (kept thu)) as CH.
    destruct (filter (a_guard f) (kept thu)) as [|x [|y q]]; cbn in *; try lia; try (destruct I; fail).
    destruct I as [-> |[]]. reflexivity.
  - intros t th N NE. pose proof (A t f) as (BW & BR & _). unfold owns_at in BW, BR. rewrite N, LW in BW. rewrite N, LR in BR.
    rewrite at_most_other in BW by auto. cbn in BR.
    pose proof (count_kept f th KW) as CW'. pose proof (count_kept f th KR) as CR'. pose proof (count_held f (kept th)) as CH.
    destruct (filter (a_guard f) (kept th)); auto. cbn in CH. lia.
Qed.
