(** Proof support for property C18. *)
From Coq Require Import List Bool Arith Lia.
From Verif Require Import ProxyTypes MultiSpec GraphSpec MultiModel MultiOwn MultiOrder MultiTerm MultiTrap.
Import ListNotations.

Scheme means_mut := Induction for means Sort Prop
  with yields_mut := Induction for yields Sort Prop.

Section Graph.
  Variable v0 : fid -> option nat.
  Variable bld : fid -> prog.
  Notation means := (means v0 bld).
  Notation yields := (yields v0 bld).

  Lemma means_unique f a : means f a -> forall b, means f b -> a = b.
  Proof.
    intros M. revert f a M.
    refine (means_mut v0 bld (fun f a _ => forall b, means f b -> a = b)
                      (fun p a _ => forall b, yields p b -> a = b) _ _ _ _ _ _ _ _).
    - intros f v E b H. inversion H; subst; congruence.
    - intros f o E Y IH b H. inversion H; subst; [congruence|auto].
    - intros o b H. inversion H. reflexivity.
    - intros f k x o M IHM Y IHY b H. inversion H; subst.
      match goal with M' : means f ?y |- _ => specialize (IHM _ M'); subst end. auto.
    - intros f k x o M IHM Y IHY b H. inversion H; subst.
      match goal with M' : means f ?y |- _ => specialize (IHM _ M'); subst end. auto.
    - intros f k x o M IHM Y IHY b H. inversion H; subst.
      match goal with M' : means f ?y |- _ => specialize (IHM _ M'); subst end. auto.
    - intros f k v o M IHM Y IHY b H. inversion H; subst.
      match goal with M' : means f ?y |- _ => specialize (IHM _ M') end.
      inversion IHM; subst. auto.
    - intros f k o Y IHY b H. inversion H; subst. auto.
  Qed.

  Hypothesis PB : forall f, only_reads (bld f).

  Let builder : fid -> nat -> prog := fun f _ => bld f.

  Definition answer (m : rmode) (x : outcome nat nat) : res nat nat :=
    match m with
    | MRead | MReadMut => read_answer x
    | MTryRead | MTryReadMut => try_read_answer x
    | MLazy => lazy_init_answer x
    end.

  (** What a call may answer, given where it is. *)
  Definition right (g : fid) (p : pc) (r : res nat nat) : Prop :=
    match p with
    | Ret _ r0 => r = r0
    | I_Acq m | I_Check m | I_Upg m | I_Drain m | I_Recheck m | I_Build m | I_SetVal m _
    | I_SetFlag m | I_Down m | I_Done m | I_Fail m _ | I_Unwind m
    | R_Map m | M_Upg m | M_Drain m | M_Map m => exists x, means g x /\ r = answer m x
    | G_Get _ => exists v, means g (BOk v) /\ r = RVal (Some v)
    | G_Drop _ => r = RUnit
    | _ => True
    end.

  (** What is known of the field at a program point. *)
  Definition known (F : cells) (g : fid) (p : pc) : Prop :=
    match p with
    | I_Build _ => v0 g = None
    | I_SetVal _ v => means g (BOk v)
    | I_SetFlag _ | I_Down _ | I_Done _ | G_Get _ => value (F g) <> None
    | M_Upg m | M_Drain m | R_Map m | M_Map m => value (F g) <> None /\ m <> MLazy
    | I_Fail _ e => means g (BErr e)
    | I_Unwind _ => means g BPanic
    | Ret h r => (forall v, r = RGuard v -> means g (BOk v)) /\
                 (h = HR \/ h = HM -> value (F g) <> None)
    | C_Acq | C_Drain | C_Flag | C_Take | C_Rel _ | G_Set _ | S_Flag _ | S_Rep _ | X_Flag | X_Take => False
    | _ => True
    end.

  Definition sound (F : cells) : Prop :=
    (forall f v, value (F f) = Some v -> means f (BOk v)) /\
    (forall f, v0 f <> None -> value (F f) <> None).

  Definition mono (F F' : cells) : Prop := forall f, value (F f) <> None -> value (F' f) <> None.

  Lemma known_mono F F' g p : mono F F' -> known F g p -> known F' g p.
  Proof. intros M. destruct p; simpl; auto; intros [H1 H2]; split; auto. Qed.

  Lemma means_v0 f : means f BPanic \/ (exists e, means f (BErr e)) -> v0 f = None.
  Proof. intros [H|[e H]]; inversion H; assumption. Qed.

  Lemma release_val F t f h g : value (release F t f h g) = value (F g).
  Proof.
    destruct h; simpl; try reflexivity; unfold upd; destruct (Nat.eqb_spec g f); subst; reflexivity.
  Qed.

  Lemma same_values_sound F F' : (forall g, value (F' g) = value (F g)) -> sound F -> sound F' /\ mono F F'.
  Proof.
    intros E [S1 S2]. split; [split|].
    - intros f v H. rewrite E in H. auto.
    - intros f H. rewrite E. auto.
    - intros f H. now rewrite E.
  Qed.

  Lemma pstep_values F t g p F' p' : pstep F t g p = Some (F', p') -> known F g p -> sound F ->
    sound F' /\ mono F F'.
  Proof.
    intros S K SD.
    assert (Z : (forall f, value (F' f) = value (F f)) -> sound F' /\ mono F F').
    { intros E. now apply same_values_sound. }
    destruct p; simpl in K; try tauto; simpl in S; try discriminate S; cases_of S; try discriminate S;
      inversion S; subst; clear S;
      try (apply Z; intros ff; reflexivity);
      try (apply Z; intros ff; apply (release_val F t _ HR ff));
      try (apply Z; intros ff; apply (release_val F t _ _ ff));
      try (apply Z; intros ff; unfold upd;
           match goal with |- context [Nat.eqb ff ?x] => destruct (Nat.eqb_spec ff x) end;
           subst; reflexivity).
    clear Z. destruct SD as [S1 S2]. split; [split|].
    - intros f w. unfold upd. destruct (Nat.eqb_spec f g); [subst; simpl; intros E; inversion E; subst; exact K|auto].
    - intros f H. unfold upd. destruct (Nat.eqb_spec f g); [discriminate|auto].
    - intros f H. unfold upd. destruct (Nat.eqb_spec f g); [discriminate|exact H].
  Qed.

  Lemma upd_val F g c f : value c = value (F g) -> value (upd F g c f) = value (F f).
  Proof. intros E. unfold upd. destruct (Nat.eqb_spec f g); [subst; exact E|reflexivity]. Qed.

  Lemma pstep_known F t g p F' p' : pstep F t g p = Some (F', p') -> known F g p -> sound F ->
    known F' g p'.
  Proof.
    intros S K SD. destruct (pstep_values _ _ _ _ _ _ S K SD) as [_ MO].
    assert (V : forall v, value (F g) = Some v -> means g (BOk v)) by (intros; now apply SD).
    assert (V0 : value (F g) = None -> v0 g = None).
    { intros E. destruct SD as [_ S2]. destruct (v0 g) eqn:E0; [|reflexivity].
      exfalso. apply (S2 g); congruence. }
    assert (NE : value (F g) <> None -> value (F' g) <> None) by apply MO.
    destruct p; simpl in K; try tauto; simpl in S; try discriminate S; cases_of S; try discriminate S;
      inversion S; subst; clear S; simpl;
      try exact I;
      try (split; [intros w Hw; try discriminate; inversion Hw; subst; auto|intros [H|H]; try discriminate; auto]);
      try (apply V0; assumption);
      try (apply NE; congruence);
      try congruence;
      try (destruct m; simpl; congruence).
    all: try (unfold upd; rewrite Nat.eqb_refl; simpl; congruence).
    all: try (apply V0; reflexivity).
    all: try (exfalso; destruct m; discriminate).
    all: try (destruct K as [K1 K2]; split; auto; congruence).
    all: try (split; [apply NE; congruence|discriminate]).
  Qed.

  Lemma pstep_right F t g p F' p' r : pstep F t g p = Some (F', p') -> known F g p -> sound F ->
    right g p' r -> right g p r.
  Proof.
    intros S K SD.
    assert (V : forall v, value (F g) = Some v -> means g (BOk v)) by (intros; now apply SD).
    assert (NE : value (F g) <> None -> exists v, value (F g) = Some v).
    { destruct (value (F g)); [eauto|congruence]. }
    destruct p; simpl in K; try tauto; simpl in S; try discriminate S.
    all: try (destruct m).
    all: cases_of S; try discriminate S; inversion S; subst; clear S; simpl; auto; try congruence;
      try (intros ->; eexists; split; [eauto|]; reflexivity).
    all: try (intros ->; destruct (NE K) as [v E]; exists (BOk v); split; [auto|reflexivity]).
    all: try (intros ->; exists (BErr e); split; [exact K|reflexivity]).
    all: try (intros ->; exists BPanic; split; [exact K|reflexivity]).
    all: try (intros ->; exists (BOk n); split; [auto|reflexivity]).
    all: destruct K as [K1 K2]; try congruence.
  Qed.

  (** The invariant of a thread. *)
  Definition held_ok (F : cells) (l : guards) : Prop :=
    forall g h, In (g, h) l -> h = HR \/ h = HM -> value (F g) <> None.

  Definition follows (c : code) (f : fid) : Prop :=
    match c with
    | User p => only_reads p /\ forall o, yields p o -> yields (bld f) o
    | Call g p k => forall r, right g p r ->
        only_reads (k r) /\ forall o, yields (k r) o -> yields (bld f) o
    end.

  Fixpoint trail (above : fid -> Prop) (st : list frame) : Prop :=
    match st with
    | [] => True
    | fr :: st' =>
        above (fr_field fr) /\
        trail (follows (Call (fr_field fr) (I_Build (fr_mode fr)) (fr_cont fr))) st'
    end.

  Definition code_fine (F : cells) (c : code) : Prop :=
    match c with
    | User p => changes_nothing p
    | Call g p k => known F g p /\ forall r, changes_nothing (k r)
    end.

  Definition frame_fine (F : cells) (fr : frame) : Prop :=
    held_ok F (fr_held fr) /\ v0 (fr_field fr) = None /\ forall r, changes_nothing (fr_cont fr r).

  Definition fine (F : cells) (th : thread) : Prop :=
    code_fine F (code_of th) /\ held_ok F (held th) /\ Forall (frame_fine F) (stack th) /\
    trail (follows (code_of th)) (stack th).

  Lemma held_mono F F' l : mono F F' -> held_ok F l -> held_ok F' l.
  Proof. intros M H g h I1 I2. apply M. eapply H; eauto. Qed.

  Lemma frames_mono F F' st : mono F F' -> Forall (frame_fine F) st -> Forall (frame_fine F') st.
  Proof.
    intros M H. eapply Forall_impl; [|exact H]. intros fr (F1 & F2 & F3). split; [|auto].
    eapply held_mono; eauto.
  Qed.

  Lemma fine_mono F F' th : mono F F' -> fine F th -> fine F' th.
  Proof.
    intros M (C & H & FF & T). split; [|split; [|split; [|exact T]]].
    - destruct (code_of th); simpl in *; [exact C|]. split; [eapply known_mono; [exact M|]; apply C|apply C].
    - eapply held_mono; eauto.
    - eapply frames_mono; eauto.
  Qed.

  Lemma trail_imp (P Q : fid -> Prop) st : (forall f, P f -> Q f) -> trail P st -> trail Q st.
  Proof. destruct st; simpl; [auto|]. intros H [A B]. auto. Qed.

  Lemma only_reads_changes p : only_reads p -> changes_nothing p.
  Proof.
    induction p as [o|f c k IH]; simpl; [auto|]. intros [A B]. split; [|auto].
    destruct c as [[]| | |]; tauto.
  Qed.

  Lemma fine_step F t n th F' th' ev : sound F -> fine F th ->
    tstep builder F t n th = Some (F', th', ev) -> sound F' /\ mono F F' /\ fine F' th'.
  Proof.
    intros SD (CF & HO & FF & TR) S. destruct th as [c l st]. simpl in *.
    unfold tstep in S. simpl in S. destruct c as [[o|g c k]|g p k].
    - destruct l as [|[g h] rest].
      + destruct st as [|fr st]; [discriminate|]. inversion S; subst; clear S. simpl in *.
        destruct TR as [TR1 TR2]. inversion FF as [|? ? FF1 FF2]; subst. destruct FF1 as (H1 & H2 & H3).
        split; [exact SD|]. split; [intros f; auto|].
        assert (M : means (fr_field fr) o).
        { apply means_built; [exact H2|]. apply TR1. constructor. }
        split; [|split; [exact H1|split; [exact FF2|]]].
        * simpl. split; [|exact H3]. destruct o; simpl; auto.
        * eapply trail_imp; [|exact TR2]. intros f. simpl. destruct o; simpl; auto.
      + inversion S; subst; clear S.
        destruct (same_values_sound F (release F t g h)) as [S1 M1]; [intros; apply release_val|exact SD|].
        split; [exact S1|]. split; [exact M1|]. eapply fine_mono; [exact M1|].
        split; [exact CF|]. split; [|split; [exact FF|exact TR]].
        intros g' h' I1. apply (HO g' h'). right. exact I1.
    - destruct CF as [CF1 CF2]. destruct (through_guard c) eqn:TG.
      + destruct (take_guard g l) as [[h l']|] eqn:TK; [|discriminate].
        destruct (take_guard_in _ _ _ _ TK) as [I1 I2].
        destruct (enter_guard h c) as [p|] eqn:E; [|discriminate]. inversion S; subst; clear S.
        split; [exact SD|]. split; [intros f; auto|].
        split; [|split; [intros g' h' J; apply (HO g' h'); auto|split; [exact FF|]]].
        * simpl. split; [|exact CF2].
          destruct h, c as [[]| | |]; simpl in E, CF1; inversion E; subst; simpl; try tauto;
            eapply HO; eauto.
        * eapply trail_imp; [|exact TR]. intros f. simpl. intros [[OR1 OR2] Y] r R. split; [apply OR2|].
          intros o YO. apply Y.
          destruct h, c as [[]| | |]; simpl in E, OR1; inversion E; subst; simpl in *; try tauto;
            try (destruct R as (v & M & ->); econstructor; eauto); subst; constructor; auto.
      + destruct (enter c) as [p|] eqn:E; [|discriminate]. inversion S; subst; clear S.
        split; [exact SD|]. split; [intros f; auto|].
        split; [|split; [exact HO|split; [exact FF|]]].
        * simpl. split; [|exact CF2].
          destruct c as [[]| | |]; simpl in E, CF1; inversion E; subst; simpl; tauto.
        * eapply trail_imp; [|exact TR]. intros f. simpl. intros [[OR1 OR2] Y] r R. split; [apply OR2|].
          intros o YO. apply Y.
          destruct c as [[]| | |]; simpl in E, OR1; inversion E; subst; simpl in *; try tauto;
            destruct R as (x & M & ->); econstructor; eauto.
    - destruct CF as [CF1 CF2].
      assert (P : forall F1 p1, pstep F t g p = Some (F1, p1) ->
                  Some (F1, mkthread (Call g p1 k) l st, @nil bevent) = Some (F', th', ev) ->
                  sound F' /\ mono F F' /\ fine F' th').
      { intros F1 p1 E1 E2. inversion E2; subst; clear E2.
        destruct (pstep_values _ _ _ _ _ _ E1 CF1 SD) as [S1 M1].
        split; [exact S1|]. split; [exact M1|].
        assert (H1 : held_ok F' l) by (eapply held_mono; eauto).
        assert (H2 : Forall (frame_fine F') st) by (eapply frames_mono; eauto).
        split; [|split; [exact H1|split; [exact H2|]]].
        - simpl. split; [|exact CF2]. eapply pstep_known; eauto.
        - eapply trail_imp; [|exact TR]. intros f. simpl. intros H r R. apply H. eapply pstep_right; eauto. }
      destruct p;
        try (destruct (pstep F t g _) as [[F1 p1]|] eqn:E1 in S; [|discriminate S];
             eapply P; [exact E1|exact S]).
      + inversion S; subst; clear S. split; [exact SD|]. split; [intros f; auto|].
        split; [apply CF2|]. split; [|split; [exact FF|]].
        * simpl. intros g' h' J. destruct CF1 as [_ C2].
          destruct h; simpl in J; try (apply (HO g' h' J)); destruct J as [J|J];
            try (apply (HO g' h' J)); inversion J; subst; auto; intros [X|X]; discriminate.
        * eapply trail_imp; [|exact TR]. intros f. simpl. auto.
      + inversion S; subst; clear S. split; [exact SD|]. split; [intros f; auto|].
        split; [apply only_reads_changes, PB|]. split; [intros g' h' []|]. split.
        * constructor; [|exact FF]. split; [exact HO|]. split; [exact CF1|exact CF2].
        * simpl. split; [|exact TR]. split; [apply PB|auto].
  Qed.

  Definition good (s : sys) : Prop :=
    owned s /\ sound (fields s) /\ Forall (fine (fields s)) (threads s).

  Lemma good_step s a s' ev : step builder s a = Some (s', ev) -> good s -> good s'.
  Proof.
    intros S (O & SD & FT). destruct (step_inv _ _ _ _ _ S) as (th & th' & N & T & E).
    assert (FI : fine (fields s) th) by (rewrite Forall_forall in FT; apply FT; eapply nth_error_In; eauto).
    destruct (fine_step _ _ _ _ _ _ _ SD FI T) as (SD' & MO & FI').
    split; [eapply step_owned; eauto|]. split; [exact SD'|]. rewrite E. apply Forall_set; [|exact FI'].
    eapply Forall_impl; [|exact FT]. intros x. now apply fine_mono.
  Qed.

  Lemma good_start ps : Forall changes_nothing ps -> good (start v0 ps).
  Proof.
    intros P. split; [apply start_owned|]. split.
    - split; simpl; intros f; [intros v E; now apply means_given|auto].
    - unfold start. simpl. rewrite Forall_forall in *. intros th I.
      apply in_map_iff in I. destruct I as (p & <- & I). split; [apply P; exact I|].
      split; [intros g h []|]. simpl. auto.
  Qed.

  Lemma good_run l s s' ev : run builder s l = Some (s', ev) -> good s -> good s'.
  Proof. apply (run_ind builder good). apply good_step. Qed.

  (** A builder that succeeds runs at most once. *)
  Section Once.
    Variable f : fid.
    Variable v : nat.
    Hypothesis M : means f (BOk v).

    Definition busy_thread (th : thread) : Prop :=
      (exists fr, In fr (stack th) /\ fr_field fr = f) \/
      (exists m w k, code_of th = Call f (I_SetVal m w) k).

    Definition busy (s : sys) : Prop :=
      exists t th, nth_error (threads s) t = Some th /\ busy_thread th.

    Definition about_to (th : thread) : Prop := exists m k, code_of th = Call f (I_Build m) k.

    Definition once (s : sys) (n : nat) : Prop :=
      (forall t th, nth_error (threads s) t = Some th -> about_to th -> value (fields s f) = None) /\
      (n >= 1 -> value (fields s f) <> None \/ busy s) /\ n <= 1.

    Lemma value_change F t n th F' th' ev : fine F th ->
      tstep builder F t n th = Some (F', th', ev) -> value (F f) = None -> value (F' f) <> None ->
      exists m w k, code_of th = Call f (I_SetVal m w) k.
    Proof.
      intros (CF & _) S V V'. destruct th as [c l st]. simpl in *. unfold tstep in S. simpl in S.
      destruct c as [[o|g c k]|g p k].
      - destruct l as [|[g h] rest]; [destruct st; [discriminate|inversion S; subst; congruence]|].
        inversion S; subst. rewrite release_val in V'. congruence.
      - destruct (through_guard c).
        + destruct (take_guard g l) as [[h l']|]; [|discriminate].
          destruct (enter_guard h c); [|discriminate]. inversion S; subst. congruence.
        + destruct (enter c); [|discriminate]. inversion S; subst. congruence.
      - destruct CF as [K _].
        assert (P : forall F1 p1, pstep F t g p = Some (F1, p1) -> F' = F1 ->
                    exists m w k0, Call g p k = Call f (I_SetVal m w) k0).
        { intros F1 p1 E1 <-. destruct p; simpl in K; try tauto; simpl in E1; try discriminate E1;
            cases_of E1; try discriminate E1; inversion E1; subst; clear E1; try congruence;
            try (rewrite (release_val F t _ HR f) in V'; congruence);
            try (rewrite (release_val F t _ _ f) in V'; congruence);
            unfold upd in V';
            match type of V' with context [Nat.eqb f ?x] => destruct (Nat.eqb_spec f x) end;
            try congruence; subst; simpl in V'; try congruence.
          repeat eexists. }
        destruct p;
          try (destruct (pstep F t g _) as [[F1 p1]|] eqn:E1 in S; [|discriminate S];
               eapply P; [exact E1|inversion S; reflexivity]); inversion S; subst; congruence.
    Qed.

    Lemma to_build F t n th F' th' ev : tstep builder F t n th = Some (F', th', ev) -> about_to th' ->
      F' = F /\ value (F f) = None.
    Proof.
      intros S (m & k & E). destruct th as [c l st]. unfold tstep in S. simpl in S.
      destruct c as [[o|g c k0]|g p k0].
      - destruct l as [|[g h] rest]; [destruct st; [discriminate|]|]; inversion S; subst; simpl in E;
          inversion E. destruct o; discriminate.
      - destruct (through_guard c).
        + destruct (take_guard g l) as [[h l']|]; [|discriminate].
          destruct (enter_guard h c) eqn:EG; [|discriminate]. inversion S; subst. simpl in E. inversion E; subst.
          destruct h, c as [[]| | |]; simpl in EG; discriminate.
        + destruct (enter c) eqn:EG; [|discriminate]. inversion S; subst. simpl in E. inversion E; subst.
          destruct c as [[]| | |]; simpl in EG; discriminate.
      - destruct p;
          try (destruct (pstep F t g _) as [[F1 p1]|] eqn:E1 in S; [|discriminate S];
               inversion S; subst; simpl in E; inversion E; subst;
               simpl in E1; cases_of E1; try discriminate E1; inversion E1; subst; auto; fail);
          inversion S; subst; simpl in E; discriminate.
    Qed.

    Lemma starts_app a b : starts f (a ++ b) = starts f a + starts f b.
    Proof.
      induction a as [|[t g|t g o] a IH]; simpl; [reflexivity| |exact IH]. rewrite IH. lia.
    Qed.

    Lemma step_starts F t n th F' th' ev : tstep builder F t n th = Some (F', th', ev) ->
      starts f ev = 0 \/ (starts f ev = 1 /\ about_to th /\ busy_thread th').
    Proof.
      intros S. destruct th as [c l st]. unfold tstep in S. simpl in S.
      destruct c as [[o|g c k0]|g p k0].
      - destruct l as [|[g h] rest]; [destruct st; [discriminate|]|]; inversion S; subst; auto.
      - destruct (through_guard c).
        + destruct (take_guard g l) as [[h l']|]; [|discriminate].
          destruct (enter_guard h c); [|discriminate]. inversion S; subst; auto.
        + destruct (enter c); [|discriminate]. inversion S; subst; auto.
      - destruct p;
          try (destruct (pstep F t g _) as [[F1 p1]|] eqn:E1 in S; [|discriminate S];
               inversion S; subst; auto; fail).
        + inversion S; subst; auto.
        + inversion S; subst. simpl. destruct (Nat.eqb_spec g f); [subst|auto]. right.
          split; [reflexivity|]. split; [repeat eexists|]. left. eexists. split; [left; reflexivity|reflexivity].
    Qed.

    Lemma busy_own th : busy_thread th -> In (f, KW) (owns th).
    Proof.
      unfold owns. intros [(fr & I & <-)|(m & w & k & E)].
      - apply in_or_app. right. apply in_or_app. right. now apply frame_owns.
      - rewrite E. left. reflexivity.
    Qed.

    Lemma about_own th : about_to th -> In (f, KW) (owns th).
    Proof. unfold owns. intros (m & k & E). rewrite E. left. reflexivity. Qed.

    Lemma not_both s t th : owned s -> nth_error (threads s) t = Some th ->
      about_to th -> busy_thread th -> False.
    Proof.
      intros [_ A] N (m & k & E) [(fr & I & EF)|(m' & w & k' & E')]; [|congruence].
      specialize (A t f). unfold owns_at in A. rewrite N in A. destruct A as (A & _).
      unfold owns in A. rewrite E in A. simpl in A. rewrite Nat.eqb_refl in A.
      assert (G : cnt KW f (own_held (held th) ++ own_stack (stack th)) > 0).
      { apply cnt_in. apply in_or_app. right. rewrite <- EF. now apply frame_owns. }
      assert (L : at_most (lw (fields s f)) t <= 1).
      { unfold at_most. destruct (lw (fields s f)) as [x|]; [destruct (Nat.eqb x t)|]; lia. }
      lia.
    Qed.

    Lemma still_busy F t n th F' th' ev : sound F -> fine F th ->
      tstep builder F t n th = Some (F', th', ev) -> busy_thread th ->
      busy_thread th' \/ value (F' f) <> None.
    Proof.
      intros SD (CF & HO & FF & TR) S BT. destruct th as [c l st]. simpl in *.
      unfold tstep in S. simpl in S. destruct c as [[o|g c k]|g p k].
      - destruct BT as [(fr & I & EF)|(m & w & k & E)]; [|discriminate].
        destruct l as [|[g h] rest].
        + destruct st as [|fr0 st]; [discriminate|]. inversion S; subst; clear S. simpl in *.
          destruct TR as [TR1 TR2]. inversion FF as [|? ? FF1 FF2]; subst. destruct FF1 as (H1 & H2 & H3).
          destruct I as [<-|I]; [|left; left; exists fr; auto].
          assert (MO : means (fr_field fr0) o).
          { apply means_built; [exact H2|]. apply TR1. constructor. }
          rewrite EF in *. rewrite <- (means_unique _ _ M _ MO). left. right. simpl. repeat eexists.
        + inversion S; subst. left. left. exists fr. auto.
      - destruct BT as [(fr & I & EF)|(m & w & k' & E)]; [|discriminate].
        destruct (through_guard c).
        + destruct (take_guard g l) as [[h l']|]; [|discriminate].
          destruct (enter_guard h c); [|discriminate]. inversion S; subst. left. left. exists fr. auto.
        + destruct (enter c); [|discriminate]. inversion S; subst. left. left. exists fr. auto.
      - destruct BT as [(fr & I & EF)|(m & w & k' & E)].
        + left. left. exists fr. split; [|exact EF].
          destruct p;
            try (destruct (pstep F t g _) as [[F1 p1]|] eqn:E1 in S; [|discriminate S];
                 inversion S; subst; exact I); inversion S; subst; [exact I|right; exact I].
        + inversion E; subst. simpl in S. inversion S; subst. right. unfold upd. rewrite Nat.eqb_refl. discriminate.
    Qed.

    Lemma once_step s a s' ev n : step builder s a = Some (s', ev) -> good s -> once s n ->
      once s' (n + starts f ev).
    Proof.
      intros S (O & SD & FT) (I1 & I2 & I3). destruct (step_inv _ _ _ _ _ S) as (th & th' & N & T & E).
      assert (FI : fine (fields s) th) by (rewrite Forall_forall in FT; apply FT; eapply nth_error_In; eauto).
      destruct (fine_step _ _ _ _ _ _ _ SD FI T) as (SD' & MO & FI').
      assert (OWN : forall t1 t2 x1 x2, nth_error (threads s) t1 = Some x1 -> nth_error (threads s) t2 = Some x2 ->
                In (f, KW) (owns x1) -> In (f, KW) (owns x2) -> t1 = t2).
      { intros t1 t2 x1 x2 N1 N2 O1 O2. pose proof (owner_lw _ _ _ _ O N1 O1).
        pose proof (owner_lw _ _ _ _ O N2 O2). congruence. }
      assert (NTH : forall u x, nth_error (threads s') u = Some x ->
                (u = fst a /\ x = th') \/ (u <> fst a /\ nth_error (threads s) u = Some x)).
      { intros u x. rewrite E. destruct (Nat.eq_dec (fst a) u) as [<-|D].
        - rewrite (nth_set_same _ _ _ _ N). intros H; inversion H; auto.
        - rewrite (nth_set_other _ _ _ _ D). auto. }
      assert (BUSY : busy s -> value (fields s' f) <> None \/ busy s').
      { intros (u & x & Nx & Bx). destruct (Nat.eq_dec (fst a) u) as [<-|D].
        - rewrite N in Nx. inversion Nx; subst x.
          destruct (still_busy _ _ _ _ _ _ _ SD FI T Bx) as [B|V]; [|auto].
          right. exists (fst a), th'. split; [|exact B]. rewrite E. eapply nth_set_same; eauto.
        - right. exists u, x. split; [|exact Bx]. rewrite E, (nth_set_other _ _ _ _ D). exact Nx. }
      split; [|split].
      - intros u x Nx AB. destruct (NTH u x Nx) as [(-> & ->)|(D & N0)].
        + destruct (to_build _ _ _ _ _ _ _ T AB) as [EF V]. rewrite EF. exact V.
        + pose proof (I1 _ _ N0 AB) as V. destruct (value (fields s' f)) eqn:V'; [|reflexivity].
          exfalso. destruct (value_change _ _ _ _ _ _ _ FI T V) as (m & w & k & EC); [congruence|].
          apply D. eapply OWN; [exact N0|exact N|now apply about_own|].
          apply busy_own. right. repeat eexists. exact EC.
      - intros G. destruct (step_starts _ _ _ _ _ _ _ T) as [Z|(Z & AB & BT)].
        + destruct I2 as [V|B]; [lia|left; now apply MO|auto].
        + right. exists (fst a), th'. split; [|exact BT]. rewrite E. eapply nth_set_same; eauto.
      - destruct (step_starts _ _ _ _ _ _ _ T) as [Z|(Z & AB & BT)]; [lia|].
        assert (n = 0); [|lia]. destruct n as [|n]; [reflexivity|exfalso].
        destruct I2 as [V|(u & x & Nx & Bx)]; [lia|apply V; eapply I1; eauto|].
        assert (u = fst a) by (eapply OWN; eauto using busy_own, about_own). subst u.
        rewrite N in Nx. inversion Nx; subst x. eapply not_both; eauto.
    Qed.

    Lemma once_run l : forall s s' ev n, run builder s l = Some (s', ev) -> good s -> once s n ->
      once s' (n + starts f ev).
    Proof.
      induction l as [|a l IH]; simpl; intros s s' ev n R G ON.
      - inversion R; subst. simpl. now rewrite Nat.add_0_r.
      - destruct (step builder s a) as [[s1 e1]|] eqn:S; [|discriminate].
        destruct (run builder s1 l) as [[s2 e2]|] eqn:R2; [|discriminate].
        inversion R; subst. rewrite starts_app, Nat.add_assoc.
        eapply IH; eauto; [eapply good_step; eauto|eapply once_step; eauto].
    Qed.

    Lemma once_start ps : once (start v0 ps) 0.
    Proof.
      split; [|split; lia]. intros t th N (m & k & E). exfalso. unfold start in N. simpl in N.
      rewrite nth_error_map in N. destruct (nth_error ps t); simpl in N; inversion N; subst. discriminate.
    Qed.
  End Once.
End Graph.
