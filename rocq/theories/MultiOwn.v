(** Who owns which lock: the lock words of the fields say exactly what the threads
    are entitled to, in every reachable state (proof support, no model here). *)
From Coq Require Import List Bool Arith Lia.
From Verif Require Import ProxyTypes MultiSpec MultiModel.
Import ListNotations.

Inductive kind : Type := KW | KU | KR.

Definition keqb (a b : kind) : bool :=
  match a, b with KW, KW | KU, KU | KR, KR => true | _, _ => false end.

Definition own_hold (f : fid) (h : hold) : list (fid * kind) :=
  match h with HNone => [] | HR => [(f, KR)] | HM | HW => [(f, KW)] end.

(** What a call in progress owns. *)
Definition own_pc (f : fid) (p : pc) : list (fid * kind) :=
  match p with
  | Ret h _ | G_Get h | G_Drop h => own_hold f h
  | I_Acq _ | W_Acq | C_Acq | L_Load | K_Acq | D_Acq | Q_Acq _ | LR_Acq | LW_Acq => []
  | I_Check _ | I_Upg _ | I_Done _ | M_Upg _ => [(f, KU)]
  | I_Drain _ | I_Recheck _ | I_Build _ | I_SetVal _ _ | I_SetFlag _ | I_Down _
  | I_Fail _ _ | I_Unwind _ | M_Drain _ | M_Map _ | W_Drain | C_Drain | C_Flag | C_Take
  | C_Rel _ | LW_Drain | LW_Map | G_Set _ | S_Flag _ | S_Rep _ | X_Flag | X_Take => [(f, KW)]
  | R_Map _ | LR_Map | K_Val | K_Flag _ | K_Rel _ _ | D_Val | D_Rel _ | Q_Rel _ | Q_Acq2 _ => [(f, KR)]
  | Q_Cmp g | Q_Rel2 g _ => [(g, KR); (f, KR)]
  end.

Fixpoint own_held (l : guards) : list (fid * kind) :=
  match l with [] => [] | (f, h) :: l' => own_hold f h ++ own_held l' end.

Fixpoint own_stack (l : list frame) : list (fid * kind) :=
  match l with
  | [] => []
  | fr :: l' => (fr_field fr, KW) :: own_held (fr_held fr) ++ own_stack l'
  end.

Definition own_code (c : code) : list (fid * kind) :=
  match c with User _ => [] | Call f p _ => own_pc f p end.

Definition owns (th : thread) : list (fid * kind) :=
  own_code (code_of th) ++ own_held (held th) ++ own_stack (stack th).

Fixpoint cnt (k : kind) (f : fid) (l : list (fid * kind)) : nat :=
  match l with
  | [] => 0
  | (g, j) :: l' => (if keqb k j then if Nat.eqb g f then 1 else 0 else 0) + cnt k f l'
  end.

Lemma cnt_app k f a b : cnt k f (a ++ b) = cnt k f a + cnt k f b.
Proof. induction a as [|[g j] a IH]; simpl; [reflexivity|]. rewrite IH. lia. Qed.

Lemma cnt_in k f l : In (f, k) l <-> cnt k f l > 0.
Proof.
  induction l as [|[g j] l IH]; simpl.
  - split; [tauto|lia].
  - rewrite IH. split.
    + intros [E|H]; [inversion E; subst; destruct k; simpl; rewrite Nat.eqb_refl; lia|lia].
    + destruct k, j; simpl; try (intros H; right; lia);
        (destruct (Nat.eqb_spec g f); [subst; auto | intros H; right; lia]).
Qed.

Definition at_most (o : option tid) (t : tid) : nat :=
  match o with Some x => if Nat.eqb x t then 1 else 0 | None => 0 end.

Fixpoint times (t : tid) (l : list tid) : nat :=
  match l with [] => 0 | x :: l' => (if Nat.eqb x t then 1 else 0) + times t l' end.

Lemma times_in t l : In t l <-> times t l > 0.
Proof.
  induction l as [|x l IH]; simpl; [split; [tauto|lia]|].
  rewrite IH. destruct (Nat.eqb_spec x t); [subst; split; [lia|auto] | ].
  split; [intros [E|H]; [congruence|lia] | intros H; right; lia].
Qed.

Lemma times_drop t u l : times u (drop_one t l) =
  if Nat.eqb t u then pred (times u l) else times u l.
Proof.
  induction l as [|x l IH]; simpl; [destruct (Nat.eqb t u); reflexivity|].
  destruct (Nat.eqb_spec x t).
  - subst. destruct (Nat.eqb_spec t u); [reflexivity|lia].
  - simpl. rewrite IH. destruct (Nat.eqb_spec t u); [|reflexivity].
    subst. destruct (Nat.eqb_spec x u); [congruence|lia].
Qed.

(** The lock of [f] grants thread [t] what list [l] says. *)
Definition agree (F : cells) (t : tid) (l : list (fid * kind)) : Prop :=
  forall f, cnt KW f l = at_most (lw (F f)) t /\
            cnt KU f l = at_most (lu (F f)) t /\
            cnt KR f l = times t (lr (F f)).

(** The writer bit and the upgradable lock are never taken together. *)
Definition excl (F : cells) : Prop := forall f, lw (F f) = None \/ lu (F f) = None.

(** A step of [t] leaves the rights of the others alone. *)
Definition others (F F' : cells) (t : tid) : Prop :=
  forall u f, u <> t ->
    at_most (lw (F' f)) u = at_most (lw (F f)) u /\
    at_most (lu (F' f)) u = at_most (lu (F f)) u /\
    times u (lr (F' f)) = times u (lr (F f)).

Lemma others_refl F t : others F F t.
Proof. intros u f _. auto. Qed.

Lemma at_most_one o t : at_most o t >= 1 -> o = Some t.
Proof.
  destruct o as [x|]; simpl; [|lia]. destruct (Nat.eqb_spec x t); [subst; auto|lia].
Qed.

Lemma at_most_other t u : u <> t -> at_most (Some t) u = 0.
Proof. simpl. destruct (Nat.eqb_spec t u); congruence. Qed.

Lemma at_most_self t : at_most (Some t) t = 1.
Proof. simpl. now rewrite Nat.eqb_refl. Qed.

(** A change of the lock of one field. *)
Lemma change_lock F t f l l' w u r v b :
  agree F t l -> excl F ->
  (w = None \/ u = None) ->
  (forall g, g <> f -> forall k, cnt k g l' = cnt k g l) ->
  cnt KW f l' = at_most w t -> cnt KU f l' = at_most u t -> cnt KR f l' = times t r ->
  (forall x, x <> t -> at_most w x = at_most (lw (F f)) x /\ at_most u x = at_most (lu (F f)) x /\
                       times x r = times x (lr (F f))) ->
  let F' := upd F f (mkcell v b w u r) in
  agree F' t l' /\ excl F' /\ others F F' t.
Proof.
  intros A X WU O W U R H F'. unfold F', upd. repeat split.
  - destruct (Nat.eqb_spec f0 f); [subst; auto|]. rewrite O by auto. apply A.
  - destruct (Nat.eqb_spec f0 f); [subst; auto|]. rewrite O by auto. apply A.
  - destruct (Nat.eqb_spec f0 f); [subst; auto|]. rewrite O by auto. apply A.
  - intros g. destruct (Nat.eqb_spec g f); [subst; auto|]. apply X.
  - destruct (Nat.eqb_spec f0 f); [subst; simpl; now apply H|reflexivity].
  - destruct (Nat.eqb_spec f0 f); [subst; simpl; now apply H|reflexivity].
  - destruct (Nat.eqb_spec f0 f); [subst; simpl; now apply H|reflexivity].
Qed.

Lemma agree_ext F t l l' : (forall k f, cnt k f l' = cnt k f l) -> agree F t l -> agree F t l'.
Proof. intros E A f. rewrite !E. apply A. Qed.

Lemma release_own F t f h l0 :
  agree F t (own_hold f h ++ l0) -> excl F ->
  agree (release F t f h) t l0 /\ excl (release F t f h) /\ others F (release F t f h) t.
Proof.
  intros A X. pose proof (A f) as (AW & AU & AR). rewrite cnt_app in *.
  destruct h; simpl in *; [repeat split; auto; apply A| | |];
    rewrite Nat.eqb_refl in *; simpl in *.
  - unfold set_lock. refine (change_lock _ _ _ _ _ _ _ _ _ _ A X _ _ _ _ _ _).
    + apply X.
    + intros g Hg k. simpl. destruct (Nat.eqb_spec f g); [congruence|].
      destruct k; reflexivity.
    + lia.
    + lia.
    + rewrite times_drop, Nat.eqb_refl. lia.
    + intros x Hx. rewrite times_drop. destruct (Nat.eqb_spec t x); [congruence|auto].
  - unfold set_lock. assert (E : lw (F f) = Some t) by (apply at_most_one; lia).
    refine (change_lock _ _ _ _ _ _ _ _ _ _ A X _ _ _ _ _ _); auto; try lia.
    + intros g Hg k. simpl. destruct (Nat.eqb_spec f g); [congruence|].
      destruct k; reflexivity.
    + rewrite E, at_most_self in AW. simpl. lia.
    + intros x Hx. rewrite E, (at_most_other _ _ Hx). auto.
  - unfold set_lock. assert (E : lw (F f) = Some t) by (apply at_most_one; lia).
    refine (change_lock _ _ _ _ _ _ _ _ _ _ A X _ _ _ _ _ _); auto; try lia.
    + intros g Hg k. simpl. destruct (Nat.eqb_spec f g); [congruence|].
      destruct k; reflexivity.
    + rewrite E, at_most_self in AW. simpl. lia.
    + intros x Hx. rewrite E, (at_most_other _ _ Hx). auto.
Qed.

(** A step of a call. *)
Lemma pstep_own F t f p F' p' l0 :
  pstep F t f p = Some (F', p') ->
  agree F t (own_pc f p ++ l0) -> excl F ->
  agree F' t (own_pc f p' ++ l0) /\ excl F' /\ others F F' t.
Proof.
  intros S A X.
  assert (Z : F' = F -> own_pc f p' = own_pc f p ->
              agree F' t (own_pc f p' ++ l0) /\ excl F' /\ others F F' t).
  { intros -> E. rewrite E. split; [auto|split; [auto|apply others_refl]]. }
  pose proof (A f) as (AW & AU & AR). pose proof (X f) as XF.
  destruct p; simpl in S;
    try discriminate S;
    try (inversion S; subst; apply release_own in A; [|assumption]; exact A);
    try (inversion S; subst; apply (release_own F t g HR) in A; [|assumption]; exact A);
    try (inversion S; subst; apply Z; reflexivity);
    repeat match type of S with
      | context [match ?x with _ => _ end] =>
          match x with
          | value _ => destruct x eqn:?
          | lw _ => destruct x eqn:?
          | lu _ => destruct x eqn:?
          | lr _ => destruct x eqn:?
          | _ => is_var x; destruct x
          end
      end;
    try discriminate S;
    inversion S; subst; clear S;
    try (apply Z; reflexivity); clear Z;
    repeat match goal with H : lw _ = _ |- _ => rewrite H in * end;
    repeat match goal with H : lu _ = _ |- _ => rewrite H in * end;
    unfold set_lock, set_flag, set_value;
    rewrite !cnt_app in AW, AU, AR; simpl in AW, AU, AR; rewrite ?Nat.eqb_refl in AW; rewrite ?Nat.eqb_refl in AU; rewrite ?Nat.eqb_refl in AR; simpl in AW, AU, AR;
    try match goal with |- context [upd F ?x _] => pose proof (A x) as (BW & BU & BR);
         rewrite !cnt_app in BW, BU, BR; simpl in BW, BU, BR end;
    try (assert (EW : lw (F f) = Some t) by (apply at_most_one; lia); rewrite EW in *);
    try (assert (EU : lu (F f) = Some t) by (apply at_most_one; lia); rewrite EU in *);
    try (destruct XF as [XF|XF]; try discriminate XF; rewrite XF in *);
    (refine (change_lock _ _ _ _ _ _ _ _ _ _ A X _ _ _ _ _ _);
     [ first [assumption | left; reflexivity | right; reflexivity | apply X | left; assumption | right; assumption]
     | intros z Hz kk; rewrite !cnt_app; simpl;
       repeat match goal with |- context [Nat.eqb ?a z] => destruct (Nat.eqb_spec a z) end;
       try congruence; destruct kk; simpl; reflexivity
     | .. ];
     rewrite ?cnt_app; simpl; rewrite ?Nat.eqb_refl, ?times_drop, ?Nat.eqb_refl; simpl;
     try (try rewrite EW in *; try rewrite EU in *; simpl in *; rewrite ?Nat.eqb_refl in *; lia);
     try (intros x Hx; rewrite ?times_drop;
          try rewrite EW in *; try rewrite EU in *;
          repeat match goal with H : lw _ = _ |- _ => rewrite H in * end;
          repeat match goal with H : lu _ = _ |- _ => rewrite H in * end;
          simpl; destruct (Nat.eqb_spec t x); [congruence|]; auto)).
  all: rewrite ?Heqo in BW; simpl in BW; try lia.
Qed.

Lemma own_held_keep f h l : own_held (keep f h l) = own_hold f h ++ own_held l.
Proof. destruct h; reflexivity. Qed.

Lemma take_guard_own f l h l' k g :
  take_guard f l = Some (h, l') ->
  cnt k g (own_held l) = cnt k g (own_hold f h) + cnt k g (own_held l').
Proof.
  revert l'. induction l as [|[x y] l IH]; intros l' E; simpl in E; [discriminate|].
  destruct (Nat.eqb_spec x f).
  - inversion E; subst. simpl. apply cnt_app.
  - destruct (take_guard f l) as [[h1 l1]|] eqn:T; [|discriminate]. inversion E; subst.
    simpl. rewrite !cnt_app, (IH l1 eq_refl). lia.
Qed.

Lemma enter_own f c p : enter c = Some p -> own_pc f p = [].
Proof. destruct c as [[]| | |]; simpl; intros E; inversion E; reflexivity. Qed.

Lemma enter_guard_own f h c p : enter_guard h c = Some p -> own_pc f p = own_hold f h.
Proof. destruct h, c as [[]| | |]; simpl; intros E; inversion E; reflexivity. Qed.

Lemma after_build_own f m o : own_pc f (after_build m o) = [(f, KW)].
Proof. destruct o; reflexivity. Qed.

Section Steps.
  Variable builder : fid -> nat -> prog.

  Lemma tstep_own F t n th F' th' ev :
    tstep builder F t n th = Some (F', th', ev) ->
    agree F t (owns th) -> excl F ->
    agree F' t (owns th') /\ excl F' /\ others F F' t.
  Proof.
    unfold tstep, owns. destruct th as [c h st]. simpl. intros S A X.
    assert (Z : F' = F -> (forall k f, cnt k f (owns th') = cnt k f (owns (mkthread c h st))) ->
                agree F' t (owns th') /\ excl F' /\ others F F' t).
    { intros -> E. split; [eapply agree_ext; [exact E|exact A]|]. split; [exact X|apply others_refl]. }
    unfold owns in Z. simpl in Z.
    destruct c as [[o|f c k]|f p k].
    - destruct h as [|[f h] rest].
      + destruct st as [|fr st]; [discriminate|]. inversion S; subst. apply Z; [reflexivity|].
        intros k f. simpl. rewrite after_build_own. reflexivity.
      + inversion S; subst. simpl in *. rewrite <- app_assoc in A.
        apply release_own in A; [|assumption]. exact A.
    - destruct (through_guard c).
      + destruct (take_guard f h) as [[hh l]|] eqn:T; [|discriminate].
        destruct (enter_guard hh c) as [p|] eqn:G; [|discriminate]. inversion S; subst.
        apply Z; [reflexivity|]. intros kk g. simpl. rewrite (enter_guard_own _ _ _ _ G).
        rewrite !cnt_app, (take_guard_own _ _ _ _ kk g T). lia.
      + destruct (enter c) as [p|] eqn:G; [|discriminate]. inversion S; subst.
        apply Z; [reflexivity|]. intros kk g. simpl. rewrite (enter_own _ _ _ G). reflexivity.
    - assert (P : forall F1 p1, pstep F t f p = Some (F1, p1) ->
                  Some (F1, mkthread (Call f p1 k) h st, @nil bevent) = Some (F', th', ev) ->
                  agree F' t (owns th') /\ excl F' /\ others F F' t).
      { intros F1 p1 E1 E2. inversion E2; subst. unfold owns. simpl.
        eapply pstep_own; eauto. }
      destruct p;
        try (destruct (pstep F t f _) as [[F1 p1]|] eqn:E1 in S; [|discriminate S];
             eapply P; [exact E1|exact S]).
      + inversion S; subst. apply Z; [reflexivity|]. intros kk g. simpl.
        rewrite own_held_keep, !cnt_app. lia.
      + inversion S; subst. apply Z; [reflexivity|]. intros kk g. simpl.
        rewrite !cnt_app. reflexivity.
  Qed.

  Definition owns_at (s : sys) (t : tid) : list (fid * kind) :=
    match nth_error (threads s) t with Some th => owns th | None => [] end.

  Definition owned (s : sys) : Prop :=
    excl (fields s) /\ forall t, agree (fields s) t (owns_at s t).

  Lemma nth_set_same {A} n (l : list A) x y : nth_error l n = Some y -> nth_error (set_nth n l x) n = Some x.
  Proof. revert n. induction l as [|z l IH]; destruct n; simpl; intros E; try discriminate; auto. Qed.

  Lemma nth_set_other {A} n m (l : list A) x : n <> m -> nth_error (set_nth n l x) m = nth_error l m.
  Proof.
    revert n m. induction l as [|z l IH]; destruct n, m; simpl; intros E; try reflexivity; try congruence.
    apply IH. congruence.
  Qed.

  Lemma step_inv s a s' ev : step builder s a = Some (s', ev) ->
    exists th th', nth_error (threads s) (fst a) = Some th /\
      tstep builder (fields s) (fst a) (snd a) th = Some (fields s', th', ev) /\
      threads s' = set_nth (fst a) (threads s) th'.
  Proof.
    unfold step. destruct (nth_error (threads s) (fst a)) as [th|] eqn:E; [|discriminate].
    destruct (tstep _ _ _ _ th) as [[[F' th'] e]|] eqn:T; [|discriminate].
    intros H. inversion H; subst. exists th, th'. auto.
  Qed.

  Lemma step_owned s a s' ev : step builder s a = Some (s', ev) -> owned s -> owned s'.
  Proof.
    intros S [X A]. destruct (step_inv _ _ _ _ S) as (th & th' & N & T & E).
    pose proof (A (fst a)) as A0. unfold owns_at in A0. rewrite N in A0.
    destruct (tstep_own _ _ _ _ _ _ _ T A0 X) as (A1 & X1 & O).
    split; [exact X1|]. intros t. unfold owns_at. rewrite E.
    destruct (Nat.eq_dec (fst a) t) as [<-|D].
    - rewrite (nth_set_same _ _ _ _ N). exact A1.
    - rewrite (nth_set_other _ _ _ _ D). intros f. destruct (O t f) as (O1 & O2 & O3); [congruence|].
      rewrite O1, O2, O3. apply A.
  Qed.

  Lemma run_ind (P : sys -> Prop) :
    (forall s a s' ev, step builder s a = Some (s', ev) -> P s -> P s') ->
    forall l s s' ev, run builder s l = Some (s', ev) -> P s -> P s'.
  Proof.
    intros H. induction l as [|a l IH]; simpl; intros s s' ev R PS.
    - inversion R; subst. exact PS.
    - destruct (step builder s a) as [[s1 e1]|] eqn:E; [|discriminate].
      destruct (run builder s1 l) as [[s2 e2]|] eqn:R2; [|discriminate].
      inversion R; subst. eapply IH; [exact R2|]. eapply H; eauto.
  Qed.

  Lemma start_owned v0 ps : owned (start v0 ps).
  Proof.
    split; [intros f; left; reflexivity|]. intros t f. unfold owns_at, start. simpl.
    rewrite nth_error_map. destruct (nth_error ps t); simpl; auto.
  Qed.

  Lemma reach_owned v0 ps l s ev : run builder (start v0 ps) l = Some (s, ev) -> owned s.
  Proof. intros R. eapply (run_ind owned); eauto using step_owned, start_owned. Qed.
End Steps.
