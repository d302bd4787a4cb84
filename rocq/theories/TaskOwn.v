(** Who owns which lock and who waits in which queue: the locks of the fields say
    exactly what the tasks are entitled to, in every reachable state (proof support,
    no model here). *)
From Coq Require Import List Bool Arith Lia.
From Verif Require Import ProxyTypes MultiSpec TaskSpec TaskModel.
Import ListNotations.

Inductive kind : Type := KW | KR | KQ.

Definition keqb (a b : kind) : bool :=
  match a, b with KW, KW | KR, KR | KQ, KQ => true | _, _ => false end.

Definition own_hold (f : fid) (h : hold) : list (fid * kind) :=
  match h with HNone => [] | HR => [(f, KR)] | HM | HW => [(f, KW)] end.

(** What a call in progress owns. *)
Definition own_pc (f : fid) (p : pc) : list (fid * kind) :=
  match p with
  | Ret h _ | G_Get h | G_Drop h => own_hold f h
  | I_Acq _ | W_Acq | C_Acq | L_Load | K_Acq | D_Acq | Q_Acq _ | LR_Acq | LW_Acq => []
  | I_Wait _ | W_Wait | C_Wait | K_Wait | D_Wait | Q_Wait _ | LR_Wait | LW_Wait => [(f, KQ)]
  | I_Check _ | I_GetBld _ | I_Build _ | I_SetVal _ _ | I_SetFlag _ | I_Done _
  | I_Fail _ _ | I_Unwind _ | M_Map _ | C_Flag | C_Take | C_Rel _
  | LW_Map | G_Set _ | S_Flag _ | S_Rep _ | X_Flag | X_Take => [(f, KW)]
  | R_Map _ | LR_Map | K_Val | K_Flag _ | K_Rel _ _ | D_Val | D_Rel _ | Q_Rel _ | Q_Acq2 _ => [(f, KR)]
  | Q_Wait2 g => [(g, KQ); (f, KR)]
  | Q_Cmp g | Q_Rel2 g _ => [(g, KR); (f, KR)]
  end.

Fixpoint own_held (l : guards) : list (fid * kind) :=
  match l with [] => [] | (f, h) :: l' => own_hold f h ++ own_held l' end.

Fixpoint own_stack (l : list frame) : list (fid * kind) :=
  match l with
  | [] => []
  | fr :: l' => (fr_field fr, KW) :: own_held (fr_held fr) ++ own_stack l'
  end.

Definition own_code (c : code) : list (fid * kind) :=
  match c with
  | User _ => []
  | Call f _ p _ => own_pc f p
  | Leave gs _ => own_held gs
  end.

Definition owns (th : task) : list (fid * kind) :=
  own_code (code_of th) ++ own_held (held th) ++ own_stack (stack th).

Fixpoint cnt (k : kind) (f : fid) (l : list (fid * kind)) : nat :=
  match l with
  | [] => 0
  | (g, j) :: l' => (if keqb k j then if Nat.eqb g f then 1 else 0 else 0) + cnt k f l'
  end.

Lemma cnt_app k f a b : cnt k f (a ++ b) = cnt k f a + cnt k f b.
Proof. induction a as [|[g j] a IH]; simpl; [reflexivity|]. rewrite IH. lia. Qed.

Lemma cnt_in k f l : In (f, k) l <-> cnt k f l > 0.
Proof.
  induction l as [|[g j] l IH]; simpl.
  - split; [tauto|lia].
  - rewrite IH. split.
    + intros [E|H]; [inversion E; subst; destruct k; simpl; rewrite Nat.eqb_refl; lia|lia].
    + destruct k, j; simpl; try (intros H; right; lia);
        (destruct (Nat.eqb_spec g f); [subst; auto | intros H; right; lia]).
Qed.

Definition at_most (o : option tid) (t : tid) : nat :=
  match o with Some x => if Nat.eqb x t then 1 else 0 | None => 0 end.

Fixpoint times (t : tid) (l : list tid) : nat :=
  match l with [] => 0 | x :: l' => (if Nat.eqb x t then 1 else 0) + times t l' end.

Definition queued (t : tid) (l : list (tid * bool)) : nat := times t (map fst l).

Lemma times_in t l : In t l <-> times t l > 0.
Proof.
  induction l as [|x l IH]; simpl; [split; [tauto|lia]|].
  rewrite IH. destruct (Nat.eqb_spec x t); [subst; split; [lia|auto] | ].
  split; [intros [E|H]; [congruence|lia] | intros H; right; lia].
Qed.

Lemma times_drop t u l : times u (drop_one t l) =
  if Nat.eqb t u then pred (times u l) else times u l.
Proof.
  induction l as [|x l IH]; simpl; [destruct (Nat.eqb t u); reflexivity|].
  destruct (Nat.eqb_spec x t).
  - subst. destruct (Nat.eqb_spec t u); [reflexivity|lia].
  - simpl. rewrite IH. destruct (Nat.eqb_spec t u); [|reflexivity].
    subst. destruct (Nat.eqb_spec x u); [congruence|lia].
Qed.

Lemma queued_drop t u l : queued u (unqueue t l) =
  if Nat.eqb t u then pred (queued u l) else queued u l.
Proof.
  unfold queued. induction l as [|[x w] l IH]; simpl; [destruct (Nat.eqb t u); reflexivity|].
  destruct (Nat.eqb_spec x t).
  - subst. destruct (Nat.eqb_spec t u); [reflexivity|lia].
  - simpl. rewrite IH. destruct (Nat.eqb_spec t u); [|reflexivity].
    subst. destruct (Nat.eqb_spec x u); [congruence|lia].
Qed.

Lemma queued_end u l t w : queued u (l ++ [(t, w)]) = queued u l + (if Nat.eqb t u then 1 else 0).
Proof.
  unfold queued. induction l as [|[x b] l IH]; simpl; [lia|]. rewrite IH. lia.
Qed.

(** The lock of [f] grants task [t] what list [l] says. *)
Definition agree (F : cells) (t : tid) (l : list (fid * kind)) : Prop :=
  forall f, cnt KW f l = at_most (lw (F f)) t /\
            cnt KR f l = times t (lr (F f)) /\
            cnt KQ f l = queued t (lq (F f)).

(** A step of [t] leaves the rights of the others alone. *)
Definition others (F F' : cells) (t : tid) : Prop :=
  forall u f, u <> t ->
    at_most (lw (F' f)) u = at_most (lw (F f)) u /\
    times u (lr (F' f)) = times u (lr (F f)) /\
    queued u (lq (F' f)) = queued u (lq (F f)).

Lemma others_refl F t : others F F t.
Proof. intros u f _. auto. Qed.

Lemma at_most_one o t : at_most o t >= 1 -> o = Some t.
Proof.
  destruct o as [x|]; simpl; [|lia]. destruct (Nat.eqb_spec x t); [subst; auto|lia].
Qed.

Lemma at_most_other t u : u <> t -> at_most (Some t) u = 0.
Proof. simpl. destruct (Nat.eqb_spec t u); congruence. Qed.

Lemma at_most_self t : at_most (Some t) t = 1.
Proof. simpl. now rewrite Nat.eqb_refl. Qed.

(** A change of the lock of one field. *)
Lemma change_lock F t f l l' w r q v b :
  agree F t l ->
  (forall g, g <> f -> forall k, cnt k g l' = cnt k g l) ->
  cnt KW f l' = at_most w t -> cnt KR f l' = times t r -> cnt KQ f l' = queued t q ->
  (forall x, x <> t -> at_most w x = at_most (lw (F f)) x /\ times x r = times x (lr (F f)) /\
                       queued x q = queued x (lq (F f))) ->
  let F' := upd F f (mkcell v b w r q) in
  agree F' t l' /\ others F F' t.
Proof.
  intros A O W R Q H F'. unfold F', upd. repeat split.
  - destruct (Nat.eqb_spec f0 f); [subst; auto|]. rewrite O by auto. apply A.
  - destruct (Nat.eqb_spec f0 f); [subst; auto|]. rewrite O by auto. apply A.
  - destruct (Nat.eqb_spec f0 f); [subst; auto|]. rewrite O by auto. apply A.
  - destruct (Nat.eqb_spec f0 f); [subst; simpl; now apply H|reflexivity].
  - destruct (Nat.eqb_spec f0 f); [subst; simpl; now apply H|reflexivity].
  - destruct (Nat.eqb_spec f0 f); [subst; simpl; now apply H|reflexivity].
Qed.

Lemma agree_ext F t l l' : (forall k f, cnt k f l' = cnt k f l) -> agree F t l -> agree F t l'.
Proof. intros E A f. rewrite !E. apply A. Qed.

Ltac skip_other :=
  let g := fresh "g" in let Hg := fresh "Hg" in let k := fresh "k" in
  intros g Hg k; rewrite ?cnt_app; simpl;
  repeat match goal with |- context [Nat.eqb ?a g] => destruct (Nat.eqb_spec a g); [congruence|] end;
  destruct k; reflexivity.

Lemma release_own F t f h l0 :
  agree F t (own_hold f h ++ l0) ->
  agree (release F t f h) t l0 /\ others F (release F t f h) t.
Proof.
  intros A. pose proof (A f) as (AW & AR & AQ). rewrite cnt_app in *.
  destruct h; simpl in *; [repeat split; auto; apply A| | |];
    rewrite Nat.eqb_refl in *; simpl in *; unfold set_lock.
  - refine (change_lock _ _ _ _ _ _ _ _ _ _ A _ _ _ _ _); [skip_other|lia| |lia|].
    + rewrite times_drop, Nat.eqb_refl. lia.
    + intros x Hx. rewrite times_drop. destruct (Nat.eqb_spec t x); [congruence|auto].
  - assert (E : lw (F f) = Some t) by (apply at_most_one; lia).
    refine (change_lock _ _ _ _ _ _ _ _ _ _ A _ _ _ _ _); auto; try lia; [skip_other| |].
    + rewrite E, at_most_self in AW. simpl. lia.
    + intros x Hx. rewrite E, (at_most_other _ _ Hx). auto.
  - assert (E : lw (F f) = Some t) by (apply at_most_one; lia).
    refine (change_lock _ _ _ _ _ _ _ _ _ _ A _ _ _ _ _); auto; try lia; [skip_other| |].
    + rewrite E, at_most_self in AW. simpl. lia.
    + intros x Hx. rewrite E, (at_most_other _ _ Hx). auto.
Qed.

Definition kind_of (w : bool) : kind := if w then KW else KR.

(** A request, served or not. *)
Lemma request_own F t f w yes no F' p' l0 :
  request F t f w yes no = Some (F', p') -> agree F t l0 ->
  (p' = yes /\ agree F' t ((f, kind_of w) :: l0) \/ p' = no /\ agree F' t ((f, KQ) :: l0)) /\ others F F' t.
Proof.
  intros S A. unfold request in S. pose proof (A f) as (AW & AR & AQ).
  destruct (lq (F f)) as [|e q] eqn:EQ.
  - destruct (free (F f) w) eqn:EF.
    + inversion S; subst; clear S. unfold free in EF.
      destruct (lw (F f)) as [x|] eqn:EW; [discriminate|].
      unfold take, set_lock. destruct w.
      * destruct (lr (F f)) eqn:ER; [|discriminate].
        edestruct (change_lock F t f l0 ((f, KW) :: l0) (Some t) (@nil tid) (@nil (tid*bool))) as [G1 G2];
          [exact A|skip_other| | | | |split; [left; split; [reflexivity|]; exact G1|exact G2]].
        -- simpl. rewrite !Nat.eqb_refl. simpl in AW. lia.
        -- simpl. exact AR.
        -- simpl. exact AQ.
        -- intros x Hx. rewrite EW, ER, EQ, (at_most_other _ _ Hx). auto.
      * edestruct (change_lock F t f l0 ((f, KR) :: l0) (@None tid) (t :: lr (F f)) (@nil (tid*bool))) as [G1 G2];
          [exact A|skip_other| | | | |split; [left; split; [reflexivity|]; rewrite <- EW in G1; exact G1|rewrite <- EW in G2; exact G2]].
        -- simpl. exact AW.
        -- simpl. rewrite !Nat.eqb_refl. lia.
        -- simpl. exact AQ.
        -- intros x Hx. rewrite EW, EQ. simpl. destruct (Nat.eqb_spec t x); [congruence|auto].
    + inversion S; subst; clear S. unfold set_lock.
      edestruct (change_lock F t f l0 ((f, KQ) :: l0) (lw (F f)) (lr (F f)) [(t, w)]) as [G1 G2];
        [exact A|skip_other| | | | |split; [right; split; [reflexivity|]; exact G1|exact G2]].
      * simpl. exact AW.
      * simpl. exact AR.
      * unfold queued in *. simpl in *. rewrite !Nat.eqb_refl. lia.
      * intros x Hx. rewrite EQ. unfold queued. simpl. destruct (Nat.eqb_spec t x); [congruence|auto].
  - assert (S' : F' = upd F f (set_lock (F f) (lw (F f)) (lr (F f)) ((e :: q) ++ [(t, w)])) /\ p' = no)
      by (inversion S; auto).
    destruct S' as [-> ->]. clear S. unfold set_lock.
    edestruct (change_lock F t f l0 ((f, KQ) :: l0) (lw (F f)) (lr (F f)) ((e :: q) ++ [(t, w)])) as [G1 G2];
      [exact A|skip_other| | | | |split; [right; split; [reflexivity|]; exact G1|exact G2]].
    * simpl. exact AW.
    * simpl. exact AR.
    * rewrite queued_end, Nat.eqb_refl. simpl cnt. rewrite Nat.eqb_refl. lia.
    * intros x Hx. rewrite EQ, queued_end. destruct (Nat.eqb_spec t x); [congruence|]. rewrite Nat.add_0_r. auto.
Qed.

Lemma served_own F t f w yes F' p' l0 :
  served F t f w yes = Some (F', p') -> agree F t ((f, KQ) :: l0) ->
  p' = yes /\ agree F' t ((f, kind_of w) :: l0) /\ others F F' t.
Proof.
  intros S A. unfold served in S. pose proof (A f) as (AW & AR & AQ).
  simpl in AW, AR, AQ. rewrite Nat.eqb_refl in AQ.
  destruct (lq (F f)) as [|[u b] q] eqn:EQ; [discriminate|].
  destruct (Nat.eqb_spec u t); [subst u|discriminate]. simpl in S.
  destruct (free (F f) w) eqn:EF; [|discriminate]. inversion S; subst; clear S.
  split; [reflexivity|]. unfold queued in AQ. simpl in AQ. rewrite Nat.eqb_refl in AQ.
  unfold free in EF. destruct (lw (F f)) as [x|] eqn:EW; [discriminate|].
  assert (OQ : forall x, x <> t -> queued x q = queued x ((t, b) :: q)).
  { intros x Hx. unfold queued. simpl. destruct (Nat.eqb_spec t x); [congruence|reflexivity]. }
  unfold take, set_lock. destruct w.
  - destruct (lr (F f)) eqn:ER; [|discriminate].
    edestruct (change_lock F t f ((f, KQ) :: l0) ((f, KW) :: l0) (Some t) (@nil tid) q) as [G1 G2];
      [exact A|skip_other| | | | |split; [exact G1|exact G2]].
    + simpl. rewrite !Nat.eqb_refl. simpl in AW. lia.
    + simpl. exact AR.
    + unfold queued. simpl. lia.
    + intros x Hx. rewrite EW, ER, EQ, (at_most_other _ _ Hx), (OQ x Hx). auto.
  - rewrite EW.
    edestruct (change_lock F t f ((f, KQ) :: l0) ((f, KR) :: l0) (@None tid) (t :: lr (F f)) q) as [G1 G2];
      [exact A|skip_other| | | | |split; [exact G1|exact G2]].
    + simpl. exact AW.
    + simpl. rewrite !Nat.eqb_refl. lia.
    + unfold queued. simpl. lia.
    + intros x Hx. rewrite EW, EQ, (OQ x Hx). simpl. destruct (Nat.eqb_spec t x); [congruence|auto].
Qed.

(** A step of a call. *)
Ltac cases_of S :=
  repeat match type of S with
  | context [match ?x with _ => _ end] =>
      match x with
      | value _ => destruct x eqn:?
      | _ => is_var x; destruct x
      end
  end.

Lemma pstep_own F t ins f p F' p' l0 :
  pstep F t ins f p = Some (F', p') ->
  agree F t (own_pc f p ++ l0) ->
  agree F' t (own_pc f p' ++ l0) /\ others F F' t.
Proof.
  intros S A.
  assert (Z : F' = F -> own_pc f p' = own_pc f p -> agree F' t (own_pc f p' ++ l0) /\ others F F' t).
  { intros -> E. rewrite E. split; [auto|apply others_refl]. }
  assert (RQ : forall w g yes no l1, request F t g w yes no = Some (F', p') -> own_pc f p ++ l0 = l1 ++ l0 ->
             own_pc f yes = (g, kind_of w) :: l1 -> own_pc f no = (g, KQ) :: l1 ->
             agree F' t (own_pc f p' ++ l0) /\ others F F' t).
  { intros w g yes no l1 R E0 E1 E2. rewrite E0 in A. apply (request_own _ _ _ _ _ _ _ _ _ R) in A.
    destruct A as [[(-> & A)|(-> & A)] O]; rewrite ?E1, ?E2; auto. }
  assert (SV : forall w g yes l1, served F t g w yes = Some (F', p') -> own_pc f p = (g, KQ) :: l1 ->
             own_pc f yes = (g, kind_of w) :: l1 ->
             agree F' t (own_pc f p' ++ l0) /\ others F F' t).
  { intros w g yes l1 R E0 E1. rewrite E0 in A. apply (served_own _ _ _ _ _ _ _ _ R) in A.
    destruct A as (-> & A & O). rewrite E1; auto. }
  pose proof (A f) as (AW & AR & AQ).
  destruct p; simpl in S; unfold blocking_read in S; try discriminate S;
    try (eapply RQ; [exact S|reflexivity|reflexivity|reflexivity]);
    try (eapply SV; [exact S|reflexivity|reflexivity]);
    try (destruct ins; [inversion S; subst; apply Z; reflexivity|];
         eapply RQ; [exact S|reflexivity|reflexivity|reflexivity]);
    clear RQ SV;
    try (inversion S; subst; apply release_own in A; exact A);
    try (inversion S; subst; apply (release_own F t g HR) in A; exact A);
    try (inversion S; subst; apply Z; reflexivity);
    cases_of S; try discriminate S; inversion S; subst; clear S;
    try (apply Z; reflexivity); clear Z;
    unfold set_lock, set_flag, set_value;
    rewrite !cnt_app in AW, AR, AQ; simpl in AW, AR, AQ; rewrite ?Nat.eqb_refl in AW; rewrite ?Nat.eqb_refl in AR;
    rewrite ?Nat.eqb_refl in AQ;
    try (assert (EW : lw (F f) = Some t) by (apply at_most_one; lia); rewrite EW in *);
    (refine (change_lock _ _ _ _ _ _ _ _ _ _ A _ _ _ _ _);
     [ skip_other | .. ];
     rewrite ?cnt_app; simpl; rewrite ?Nat.eqb_refl, ?times_drop, ?Nat.eqb_refl; simpl;
     try (try rewrite EW in *; simpl in *; rewrite ?Nat.eqb_refl in *; lia);
     try (intros x Hx; rewrite ?times_drop; try rewrite EW in *;
          simpl; destruct (Nat.eqb_spec t x); [congruence|]; auto)).
Qed.

Lemma own_held_app a b : own_held (a ++ b) = own_held a ++ own_held b.
Proof. induction a as [|[f h] a IH]; simpl; [reflexivity|]. now rewrite IH, app_assoc. Qed.

Lemma own_held_keep f h l : own_held (keep f h l) = own_hold f h ++ own_held l.
Proof. destruct h; reflexivity. Qed.

Lemma take_guard_own f l h l' k g :
  take_guard f l = Some (h, l') ->
  cnt k g (own_held l) = cnt k g (own_hold f h) + cnt k g (own_held l').
Proof.
  revert l'. induction l as [|[x y] l IH]; intros l' E; simpl in E; [discriminate|].
  destruct (Nat.eqb_spec x f).
  - inversion E; subst. simpl. apply cnt_app.
  - destruct (take_guard f l) as [[h1 l1]|] eqn:T; [|discriminate]. inversion E; subst.
    simpl. rewrite !cnt_app, (IH l1 eq_refl). lia.
Qed.

Lemma enter_own f c p : enter c = Some p -> own_pc f p = [].
Proof. destruct c as [[]| | |]; simpl; intros E; inversion E; reflexivity. Qed.

Lemma enter_guard_own f h c p : enter_guard h c = Some p -> own_pc f p = own_hold f h.
Proof. destruct h, c as [[]| | |]; simpl; intros E; inversion E; reflexivity. Qed.

Lemma after_build_own f m o : own_pc f (after_build m o) = [(f, KW)].
Proof. destruct o; reflexivity. Qed.

Lemma unwind_own n st gs fr st' k g : unwind n st = Some (gs, fr, st') ->
  cnt k g (own_stack st) = cnt k g (own_held gs) + cnt k g (own_held (fr_held fr)) + cnt k g (own_stack st').
Proof.
  revert st gs. induction n as [|n IH]; intros [|x st] gs E; simpl in E; try discriminate.
  - inversion E; subst. simpl. rewrite cnt_app. lia.
  - destruct (unwind n st) as [[[gs1 fr1] st1]|] eqn:U; [|discriminate]. inversion E; subst.
    simpl. rewrite own_held_app, !cnt_app, (IH _ _ U). lia.
Qed.

Lemma unwind_all_own st : own_held (unwind_all st) = own_stack st.
Proof. induction st as [|fr st IH]; simpl; [reflexivity|]. now rewrite own_held_app, IH. Qed.

Lemma held_no_q l f : cnt KQ f (own_held l) = 0.
Proof. induction l as [|[g h] l IH]; simpl; [reflexivity|]. rewrite cnt_app, IH. destruct h; reflexivity. Qed.

Lemma stack_no_q st f : cnt KQ f (own_stack st) = 0.
Proof. induction st as [|fr st IH]; simpl; [reflexivity|]. now rewrite cnt_app, held_no_q, IH. Qed.

(** A suspended future is taken out of its queue. *)
Lemma innermost_own F t c F' gs l0 : innermost F t c = Some (F', gs) -> agree F t (own_code c ++ l0) ->
  (forall f, cnt KQ f l0 = 0) ->
  agree F' t (own_held gs ++ l0) /\ others F F' t.
Proof.
  intros S A NQ. destruct c as [p|f c p k|]; simpl in S; [inversion S; subst; split; [exact A|apply others_refl]| |discriminate].
  destruct (at_await p) as [h|] eqn:E; [|discriminate]. inversion S; subst; clear S. simpl in A.
  pose proof (A f) as (AW & AR & AQ). unfold set_lock. rewrite cnt_app in AQ, AW, AR. specialize (NQ f).
  assert (X : forall x, x <> t -> queued x (unqueue t (lq (F f))) = queued x (lq (F f))).
  { intros x Hx. rewrite queued_drop. destruct (Nat.eqb_spec t x); [congruence|reflexivity]. }
  assert (OK : own_pc f p = own_held (keep f h []) \/ (own_pc f p = [(f, KQ)] /\ h = HNone)).
  { destruct p; simpl in E; inversion E; subst; simpl; auto. }
  destruct OK as [E0|(E0 & ->)].
  - rewrite E0 in *. rewrite held_no_q in AQ.
    refine (change_lock _ _ _ _ _ _ _ _ _ _ A _ _ _ _ _);
      [reflexivity|rewrite cnt_app; exact AW|rewrite cnt_app; exact AR| |auto].
    rewrite cnt_app, held_no_q, queued_drop, Nat.eqb_refl. lia.
  - rewrite E0 in *. simpl in *. rewrite Nat.eqb_refl in AQ.
    refine (change_lock _ _ _ _ _ _ _ _ _ _ A _ _ _ _ _); [skip_other|exact AW|exact AR| |auto].
    rewrite queued_drop, Nat.eqb_refl. lia.
Qed.

Section Steps.
  Variable inside : tid -> bool.
  Variable builder : fid -> nat -> prog.

  Lemma tstep_own F t n th F' th' ev :
    tstep inside builder F t n th = Some (F', th', ev) ->
    agree F t (owns th) -> agree F' t (owns th') /\ others F F' t.
  Proof.
    unfold tstep, owns. destruct th as [c h st]. simpl. intros S A.
    assert (Z : F' = F -> (forall k f, cnt k f (owns th') = cnt k f (owns (mktask c h st))) ->
                agree F' t (owns th') /\ others F F' t).
    { intros -> E. split; [eapply agree_ext; [exact E|exact A]|apply others_refl]. }
    unfold owns in Z. simpl in Z.
    destruct c as [[o|f c k]|f c p k|gs next].
    - destruct h as [|[f h] rest].
      + destruct st as [|fr st]; [discriminate|]. inversion S; subst. apply Z; [reflexivity|].
        intros k f. simpl. rewrite after_build_own. reflexivity.
      + inversion S; subst. simpl in *. rewrite <- app_assoc in A.
        apply release_own in A. exact A.
    - destruct (through_guard c).
      + destruct (take_guard f h) as [[hh l]|] eqn:T; [|discriminate].
        destruct (enter_guard hh c) as [p|] eqn:G; [|discriminate]. inversion S; subst.
        apply Z; [reflexivity|]. intros kk g. simpl. rewrite (enter_guard_own _ _ _ _ G).
        rewrite !cnt_app, (take_guard_own _ _ _ _ kk g T). lia.
      + destruct (enter c) as [p|] eqn:G; [|discriminate]. inversion S; subst.
        apply Z; [reflexivity|]. intros kk g. simpl. rewrite (enter_own _ _ _ G). reflexivity.
    - assert (P : forall F1 p1, pstep F t (inside t) f p = Some (F1, p1) ->
                  Some (F1, mktask (Call f c p1 k) h st, @nil tevent) = Some (F', th', ev) ->
                  agree F' t (owns th') /\ others F F' t).
      { intros F1 p1 E1 E2. inversion E2; subst. unfold owns. simpl.
        eapply pstep_own; eauto. }
      destruct p;
        try (destruct (pstep F t (inside t) f _) as [[F1 p1]|] eqn:E1 in S; [|discriminate S];
             eapply P; [exact E1|exact S]).
      + inversion S; subst. apply Z; [reflexivity|]. intros kk g. simpl.
        rewrite own_held_keep, !cnt_app. lia.
      + inversion S; subst. apply Z; [reflexivity|]. intros kk g. simpl.
        rewrite !cnt_app. reflexivity.
    - destruct gs as [|[f h0] gs].
      + destruct next as [[[f c] k]|]; inversion S; subst; apply Z; reflexivity.
      + inversion S; subst. simpl in *. rewrite <- app_assoc in A. apply release_own in A. exact A.
  Qed.

  Lemma no_q l st f : cnt KQ f (own_held l ++ own_stack st) = 0.
  Proof. now rewrite cnt_app, held_no_q, stack_no_q. Qed.

  Lemma drop_call_own F t th F' th' : drop_call F t th = Some (F', th') ->
    agree F t (owns th) -> agree F' t (owns th') /\ others F F' t.
  Proof.
    unfold drop_call, owns. destruct th as [c h st]. simpl. intros S A.
    destruct c as [p|f c p k|gs next]; [discriminate| |discriminate].
    destruct (innermost F t (Call f c p k)) as [[F1 gs]|] eqn:E; [|discriminate].
    inversion S; subst. simpl. eapply innermost_own; eauto using no_q.
  Qed.

  Lemma drop_frame_own F t th n F' th' : drop_frame F t th n = Some (F', th') ->
    agree F t (owns th) -> agree F' t (owns th') /\ others F F' t.
  Proof.
    unfold drop_frame, owns. destruct th as [c h st]. cbn [code_of held stack]. intros S A.
    destruct (innermost F t c) as [[F1 gs]|] eqn:E; [|discriminate].
    destruct (unwind n st) as [[[gs1 fr] st1]|] eqn:U; [|discriminate].
    inversion S; subst. cbn [code_of held stack own_code].
    destruct (innermost_own _ _ _ _ _ _ E A (no_q h st)) as [A1 O1]. split; [|exact O1].
    eapply agree_ext; [|exact A1]. intros k g.
    rewrite !own_held_app, !cnt_app, (unwind_own _ _ _ _ _ k g U). lia.
  Qed.

  Lemma act_own F t a th F' th' ev :
    act_step inside builder F t a th = Some (F', th', ev) ->
    agree F t (owns th) -> agree F' t (owns th') /\ others F F' t.
  Proof.
    destruct a as [n| |i|]; cbn [act_step]; intros S A.
    - eapply tstep_own; eauto.
    - destruct (length (stack th)) as [|n].
      + destruct (drop_call F t th) as [[F1 th1]|] eqn:E; [|discriminate]. inversion S; subst.
        eapply drop_call_own; eauto.
      + destruct (drop_frame F t th n) as [[F1 th1]|] eqn:E; [|discriminate]. inversion S; subst.
        eapply drop_frame_own; eauto.
    - destruct i as [|i].
      + destruct (stack th); [discriminate|].
        destruct (drop_call F t th) as [[F1 th1]|] eqn:E; [|discriminate]. inversion S; subst.
        eapply drop_call_own; eauto.
      + destruct (Datatypes.S i <? length (stack th)); [|discriminate].
        destruct (drop_frame F t th i) as [[F1 th1]|] eqn:E; [|discriminate]. inversion S; subst.
        eapply drop_frame_own; eauto.
    - destruct (finished th); [discriminate|]. unfold owns in *.
      destruct (innermost F t (code_of th)) as [[F1 gs]|] eqn:E; [|discriminate].
      inversion S; subst. cbn [code_of held stack own_code].
      destruct (innermost_own _ _ _ _ _ _ E A (no_q _ _)) as [A1 O1]. split; [|exact O1].
      rewrite !own_held_app, unwind_all_own. simpl. rewrite app_nil_r. exact A1.
  Qed.

  Definition owns_at (s : sys) (t : tid) : list (fid * kind) :=
    match nth_error (tasks s) t with Some th => owns th | None => [] end.

  Definition owned (s : sys) : Prop := forall t, agree (fields s) t (owns_at s t).

  Lemma nth_set_same {A} n (l : list A) x y : nth_error l n = Some y -> nth_error (set_nth n l x) n = Some x.
  Proof. revert n. induction l as [|z l IH]; destruct n; simpl; intros E; try discriminate; auto. Qed.

  Lemma nth_set_other {A} n m (l : list A) x : n <> m -> nth_error (set_nth n l x) m = nth_error l m.
  Proof.
    revert n m. induction l as [|z l IH]; destruct n, m; simpl; intros E; try reflexivity; try congruence.
    apply IH. congruence.
  Qed.

  Lemma Forall_set {A} (P : A -> Prop) n l x : Forall P l -> P x -> Forall P (set_nth n l x).
  Proof.
    intros H PX. revert n. induction H; destruct n; simpl; constructor; auto.
  Qed.

  Lemma step_inv s a s' ev : step inside builder s a = Some (s', ev) ->
    exists th th', nth_error (tasks s) (fst a) = Some th /\
      act_step inside builder (fields s) (fst a) (snd a) th = Some (fields s', th', ev) /\
      tasks s' = set_nth (fst a) (tasks s) th'.
  Proof.
    unfold step. destruct (nth_error (tasks s) (fst a)) as [th|] eqn:E; [|discriminate].
    destruct (act_step _ _ _ _ _ th) as [[[F' th'] e]|] eqn:T; [|discriminate].
    intros H. inversion H; subst. exists th, th'. auto.
  Qed.

  Lemma step_owned s a s' ev : step inside builder s a = Some (s', ev) -> owned s -> owned s'.
  Proof.
    intros S A. destruct (step_inv _ _ _ _ S) as (th & th' & N & T & E).
    pose proof (A (fst a)) as A0. unfold owns_at in A0. rewrite N in A0.
    destruct (act_own _ _ _ _ _ _ _ T A0) as (A1 & O).
    intros t. unfold owns_at. rewrite E.
    destruct (Nat.eq_dec (fst a) t) as [<-|D].
    - rewrite (nth_set_same _ _ _ _ N). exact A1.
    - rewrite (nth_set_other _ _ _ _ D). intros f. destruct (O t f) as (O1 & O2 & O3); [congruence|].
      rewrite O1, O2, O3. apply A.
  Qed.

  Lemma run_ind (P : sys -> Prop) :
    (forall s a s' ev, step inside builder s a = Some (s', ev) -> P s -> P s') ->
    forall l s s' ev, run inside builder s l = Some (s', ev) -> P s -> P s'.
  Proof.
    intros H. induction l as [|a l IH]; simpl; intros s s' ev R PS.
    - inversion R; subst. exact PS.
    - destruct (step inside builder s a) as [[s1 e1]|] eqn:E; [|discriminate].
      destruct (run inside builder s1 l) as [[s2 e2]|] eqn:R2; [|discriminate].
      inversion R; subst. eapply IH; [exact R2|]. eapply H; eauto.
  Qed.

  Lemma start_owned v0 ps : owned (start v0 ps).
  Proof.
    intros t f. unfold owns_at, start. simpl.
    rewrite nth_error_map. destruct (nth_error ps t); simpl; auto.
  Qed.

  Lemma reach_owned v0 ps l s ev : run inside builder (start v0 ps) l = Some (s, ev) -> owned s.
  Proof. intros R. eapply (run_ind owned); eauto using step_owned, start_owned. Qed.

  Lemma finished_owns th : finished th = true -> owns th = [].
  Proof.
    destruct th as [[[o|]| |] [|] [|]]; simpl; intros; try discriminate; reflexivity.
  Qed.

  (** What the locks of a state show of a task that owns nothing. *)
  Lemma clean s t f : owned s -> cnt KW f (owns_at s t) = 0 -> cnt KR f (owns_at s t) = 0 ->
    cnt KQ f (owns_at s t) = 0 ->
    lw (fields s f) <> Some t /\ ~ In t (lr (fields s f)) /\ (forall w, ~ In (t, w) (lq (fields s f))).
  Proof.
    intros O A1 A2 A3. destruct (O t f) as (B1 & B2 & B3). repeat split.
    - intros E. rewrite E, at_most_self in B1. lia.
    - intros I. apply times_in in I. lia.
    - intros w I. assert (J : In t (map fst (lq (fields s f)))) by (apply in_map_iff; exists (t, w); auto).
      apply times_in in J. unfold queued in B3. lia.
  Qed.
End Steps.
