(** Proof support for property C63: async lazy fields get the value they are worth,
    whatever the order of reads. *)
From Coq Require Import List Bool Arith Lia.
From Verif Require GraphProofs.
From Verif Require Import ProxyTypes MultiSpec GraphSpec TaskSpec TaskModel TaskOwn TaskOrder TaskTerm TaskTrap.
Import ListNotations.

Section Graph.
  Variable inside : tid -> bool.
  Variable v0 : fid -> option nat.
  Variable bld : fid -> prog.
  Notation means := (means v0 bld).
  Notation yields := (yields v0 bld).

  Hypothesis PB : forall f, only_reads (bld f).

  Let builder : fid -> nat -> prog := fun f _ => bld f.

  Definition answer (m : rmode) (x : outcome nat nat) : res nat nat :=
    match m with
    | MRead | MReadMut => read_answer x
    | MTryRead | MTryReadMut => try_read_answer x
    | MLazy => lazy_init_answer x
    end.

  (** What a call may answer, given where it is. *)
  Definition right (g : fid) (p : pc) (r : res nat nat) : Prop :=
    match p with
    | Ret _ r0 => r = r0
    | I_Acq m | I_Wait m | I_Check m | I_GetBld m | I_Build m | I_SetVal m _
    | I_SetFlag m | I_Done m | I_Fail m _ | I_Unwind m
    | R_Map m | M_Map m => exists x, means g x /\ r = answer m x
    | G_Get _ => exists v, means g (BOk v) /\ r = RVal (Some v)
    | G_Drop _ => r = RUnit
    | _ => True
    end.

  (** What is known of the field at a program point. *)
  Definition known (F : cells) (g : fid) (p : pc) : Prop :=
    match p with
    | I_GetBld _ | I_Build _ => v0 g = None
    | I_SetVal _ v => means g (BOk v)
    | I_SetFlag _ | I_Done _ | G_Get _ => value (F g) <> None
    | R_Map m | M_Map m => value (F g) <> None /\ m <> MLazy
    | I_Fail _ e => means g (BErr e)
    | I_Unwind _ => means g BPanic
    | Ret h r => (forall v, r = RGuard v -> means g (BOk v)) /\
                 (h = HR \/ h = HM -> value (F g) <> None)
    | C_Acq | C_Wait | C_Flag | C_Take | C_Rel _ | G_Set _ | S_Flag _ | S_Rep _ | X_Flag | X_Take => False
    | _ => True
    end.

  Definition sound (F : cells) : Prop :=
    (forall f v, value (F f) = Some v -> means f (BOk v)) /\
    (forall f, v0 f <> None -> value (F f) <> None).

  Definition mono (F F' : cells) : Prop := forall f, value (F f) <> None -> value (F' f) <> None.

  Lemma known_mono F F' g p : mono F F' -> known F g p -> known F' g p.
  Proof. intros M. destruct p; simpl; auto; intros [H1 H2]; split; auto. Qed.

  Lemma same_values_sound F F' : (forall g, value (F' g) = value (F g)) -> sound F -> sound F' /\ mono F F'.
  Proof.
    intros E [S1 S2]. split; [split|].
    - intros f v H. rewrite E in H. auto.
    - intros f H. rewrite E. auto.
    - intros f H. now rewrite E.
  Qed.

  (** Only one place changes a value. *)
  Lemma pstep_same F t ins g p F' p' : pstep F t ins g p = Some (F', p') -> known F g p ->
    (exists m v, p = I_SetVal m v /\ F' = upd F g (set_value (F g) (Some v))) \/
    (forall f, value (F' f) = value (F f)).
  Proof.
    intros S K.
    destruct p; simpl in K; try tauto; simpl in S; try discriminate S; unfold blocking_read in S;
      try (right; intros ff; eapply request_value; exact S);
      try (right; intros ff; eapply served_value; exact S);
      try (destruct ins; [inversion S; right; reflexivity|right; intros ff; eapply request_value; exact S]);
      cases_of S; try discriminate S; inversion S; subst; clear S;
      try (right; intros ff; reflexivity);
      try (right; intros ff; apply (release_value F t _ HR ff));
      try (right; intros ff; apply (release_value F t _ _ ff));
      try (right; intros ff; unfold upd;
           match goal with |- context [Nat.eqb ff ?x] => destruct (Nat.eqb_spec ff x) end;
           subst; reflexivity).
    left. eauto.
  Qed.

  Lemma pstep_values F t ins g p F' p' : pstep F t ins g p = Some (F', p') -> known F g p -> sound F ->
    sound F' /\ mono F F'.
  Proof.
    intros S K SD. destruct (pstep_same _ _ _ _ _ _ _ S K) as [(m & v & -> & ->)|E];
      [|now apply same_values_sound].
    simpl in K. destruct SD as [S1 S2]. split; [split|].
    - intros f w. unfold upd. destruct (Nat.eqb_spec f g); [subst; simpl; intros E; inversion E; subst; exact K|auto].
    - intros f H. unfold upd. destruct (Nat.eqb_spec f g); [discriminate|auto].
    - intros f H. unfold upd. destruct (Nat.eqb_spec f g); [discriminate|exact H].
  Qed.

  Lemma pstep_known F t ins g p F' p' : pstep F t ins g p = Some (F', p') -> known F g p -> sound F ->
    known F' g p'.
  Proof.
    intros S K SD. destruct (pstep_values _ _ _ _ _ _ _ S K SD) as [_ MO].
    assert (V : forall v, value (F g) = Some v -> means g (BOk v)) by (intros; now apply SD).
    assert (V0 : value (F g) = None -> v0 g = None).
    { intros E. destruct SD as [_ S2]. destruct (v0 g) eqn:E0; [|reflexivity].
      exfalso. apply (S2 g); congruence. }
    assert (NE : value (F g) <> None -> value (F' g) <> None) by apply MO.
    destruct p; simpl in K; try tauto; step_cases S; simpl;
      try exact I;
      try (split; [intros w Hw; try discriminate; inversion Hw; subst; auto|intros [H|H]; try discriminate; auto]);
      try (apply V0; assumption);
      try (apply NE; congruence);
      try congruence;
      try (destruct m; simpl; congruence).
    all: try (unfold upd; rewrite Nat.eqb_refl; simpl; congruence).
    all: try (apply V0; reflexivity).
    all: try (exfalso; destruct m; discriminate).
    all: try (destruct K as [K1 K2]; split; auto; congruence).
    all: try (split; [apply NE; congruence|discriminate]).
  Qed.

  Lemma pstep_right F t ins g p F' p' r : pstep F t ins g p = Some (F', p') -> known F g p -> sound F ->
    right g p' r -> right g p r.
  Proof.
    intros S K SD.
    assert (V : forall v, value (F g) = Some v -> means g (BOk v)) by (intros; now apply SD).
    assert (NE : value (F g) <> None -> exists v, value (F g) = Some v).
    { destruct (value (F g)); [eauto|congruence]. }
    destruct p; simpl in K; try tauto.
    all: try (destruct m).
    all: step_cases S; simpl; auto; try congruence;
      try (intros ->; eexists; split; [eauto|]; reflexivity).
    all: try (intros ->; destruct (NE K) as [v E]; exists (BOk v); split; [auto|reflexivity]).
    all: try (intros ->; exists (BErr e); split; [exact K|reflexivity]).
    all: try (intros ->; exists BPanic; split; [exact K|reflexivity]).
    all: try (intros ->; exists (BOk n); split; [auto|reflexivity]).
    all: destruct K as [K1 K2]; try congruence.
  Qed.

  (** The invariant of a task. *)
  Definition held_ok (F : cells) (l : guards) : Prop :=
    forall g h, In (g, h) l -> h = HR \/ h = HM -> value (F g) <> None.

  Definition follows (c : code) (f : fid) : Prop :=
    match c with
    | User p => only_reads p /\ forall o, yields p o -> yields (bld f) o
    | Call g _ p k => forall r, right g p r ->
        only_reads (k r) /\ forall o, yields (k r) o -> yields (bld f) o
    | Leave _ _ => False
    end.

  Fixpoint trail (above : fid -> Prop) (st : list frame) : Prop :=
    match st with
    | [] => True
    | fr :: st' =>
        above (fr_field fr) /\
        trail (follows (Call (fr_field fr) (fr_call fr) (I_Build (fr_mode fr)) (fr_cont fr))) st'
    end.

  Definition code_fine (F : cells) (c : code) : Prop :=
    match c with
    | User p => changes_nothing p
    | Call g _ p k => known F g p /\ forall r, changes_nothing (k r)
    | Leave _ (Some (_, _, k)) => forall r, changes_nothing (k r)
    | Leave _ None => True
    end.

  Definition frame_fine (F : cells) (fr : frame) : Prop :=
    held_ok F (fr_held fr) /\ v0 (fr_field fr) = None /\ forall r, changes_nothing (fr_cont fr r).

  Definition fine (F : cells) (th : task) : Prop :=
    code_fine F (code_of th) /\ held_ok F (held th) /\ Forall (frame_fine F) (stack th) /\
    trail (follows (code_of th)) (stack th).

  Lemma held_mono F F' l : mono F F' -> held_ok F l -> held_ok F' l.
  Proof. intros M H g h I1 I2. apply M. eapply H; eauto. Qed.

  Lemma frames_mono F F' st : mono F F' -> Forall (frame_fine F) st -> Forall (frame_fine F') st.
  Proof.
    intros M H. eapply Forall_impl; [|exact H]. intros fr (F1 & F2 & F3). split; [|auto].
    eapply held_mono; eauto.
  Qed.

  Lemma fine_mono F F' th : mono F F' -> fine F th -> fine F' th.
  Proof.
    intros M (C & H & FF & T). split; [|split; [|split; [|exact T]]].
    - destruct (code_of th); simpl in *; [exact C| |exact C].
      split; [eapply known_mono; [exact M|]; apply C|apply C].
    - eapply held_mono; eauto.
    - eapply frames_mono; eauto.
  Qed.

  Lemma trail_imp (P Q : fid -> Prop) st : (forall f, P f -> Q f) -> trail P st -> trail Q st.
  Proof. destruct st; simpl; [auto|]. intros H [A B]. auto. Qed.

  Lemma only_reads_changes p : only_reads p -> changes_nothing p.
  Proof.
    induction p as [o|f c k IH]; simpl; [auto|]. intros [A B]. split; [|auto].
    destruct c as [[]| | |]; tauto.
  Qed.

  Lemma take_guard_in f l h l' : take_guard f l = Some (h, l') ->
    In (f, h) l /\ (forall x, In x l' -> In x l).
  Proof.
    revert h l'. induction l as [|[g x] l IH]; simpl; intros h l' E; [discriminate|].
    destruct (Nat.eqb_spec g f).
    - inversion E; subst. auto.
    - destruct (take_guard f l) as [[y l1]|]; [|discriminate]. inversion E; subst.
      destruct (IH _ _ eq_refl) as [I1 I2]. split; [auto|]. intros z [->|I]; simpl; auto.
  Qed.

  (** What a read that returns a guard shows. *)
  Definition right_ret (e : tevent) : Prop :=
    match e with TRet _ f _ (RGuard v) => means f (BOk v) | _ => True end.

  Lemma fine_tstep F t n th F' th' ev : sound F -> fine F th ->
    tstep inside builder F t n th = Some (F', th', ev) ->
    (sound F' /\ mono F F' /\ fine F' th') /\ Forall right_ret ev.
  Proof.
    intros SD (CF & HO & FF & TR) S. destruct th as [c l st]. simpl in *.
    unfold tstep in S. simpl in S. destruct c as [[o|g c k]|g c p k|gs nx].
    - destruct l as [|[g h] rest].
      + destruct st as [|fr st]; [discriminate|]. inversion S; subst; clear S. simpl in *.
        destruct TR as [TR1 TR2]. inversion FF as [|? ? FF1 FF2]; subst. destruct FF1 as (H1 & H2 & H3).
        split; [|repeat constructor]. split; [exact SD|]. split; [intros f; auto|].
        assert (M : means (fr_field fr) o).
        { apply means_built; [exact H2|]. apply TR1. constructor. }
        split; [|split; [exact H1|split; [exact FF2|]]].
        * simpl. split; [|exact H3]. destruct o; simpl; auto.
        * eapply trail_imp; [|exact TR2]. intros f. simpl. destruct o; simpl; auto.
      + inversion S; subst; clear S. split; [|constructor].
        destruct (same_values_sound F (release F t g h)) as [S1 M1]; [intros; apply release_value|exact SD|].
        split; [exact S1|]. split; [exact M1|]. eapply fine_mono; [exact M1|].
        split; [exact CF|]. split; [|split; [exact FF|exact TR]].
        intros g' h' I1. apply (HO g' h'). right. exact I1.
    - destruct CF as [CF1 CF2]. destruct (through_guard c) eqn:TG.
      + destruct (take_guard g l) as [[h l']|] eqn:TK; [|discriminate].
        destruct (take_guard_in _ _ _ _ TK) as [I1 I2].
        destruct (enter_guard h c) as [p|] eqn:E; [|discriminate]. inversion S; subst; clear S.
        split; [|constructor]. split; [exact SD|]. split; [intros f; auto|].
        split; [|split; [intros g' h' J; apply (HO g' h'); auto|split; [exact FF|]]].
        * simpl. split; [|exact CF2].
          destruct h, c as [[]| | |]; simpl in E, CF1; inversion E; subst; simpl; try tauto;
            eapply HO; eauto.
        * eapply trail_imp; [|exact TR]. intros f. simpl. intros [[OR1 OR2] Y] r R. split; [apply OR2|].
          intros o YO. apply Y.
          destruct h, c as [[]| | |]; simpl in E, OR1; inversion E; subst; simpl in *; try tauto;
            try (destruct R as (v & M & ->); econstructor; eauto); subst; constructor; auto.
      + destruct (enter c) as [p|] eqn:E; [|discriminate]. inversion S; subst; clear S.
        split; [|constructor]. split; [exact SD|]. split; [intros f; auto|].
        split; [|split; [exact HO|split; [exact FF|]]].
        * simpl. split; [|exact CF2].
          destruct c as [[]| | |]; simpl in E, CF1; inversion E; subst; simpl; tauto.
        * eapply trail_imp; [|exact TR]. intros f. simpl. intros [[OR1 OR2] Y] r R. split; [apply OR2|].
          intros o YO. apply Y.
          destruct c as [[]| | |]; simpl in E, OR1; inversion E; subst; simpl in *; try tauto;
            destruct R as (x & M & ->); econstructor; eauto.
    - destruct CF as [CF1 CF2].
      assert (P : forall F1 p1, pstep F t (inside t) g p = Some (F1, p1) ->
                  Some (F1, mktask (Call g c p1 k) l st, @nil tevent) = Some (F', th', ev) ->
                  (sound F' /\ mono F F' /\ fine F' th') /\ Forall right_ret ev).
      { intros F1 p1 E1 E2. inversion E2; subst; clear E2. split; [|constructor].
        destruct (pstep_values _ _ _ _ _ _ _ E1 CF1 SD) as [S1 M1].
        split; [exact S1|]. split; [exact M1|].
        assert (H1 : held_ok F' l) by (eapply held_mono; eauto).
        assert (H2 : Forall (frame_fine F') st) by (eapply frames_mono; eauto).
        split; [|split; [exact H1|split; [exact H2|]]].
        - simpl. split; [|exact CF2]. eapply pstep_known; eauto.
        - eapply trail_imp; [|exact TR]. intros f. simpl. intros H r R. apply H. eapply pstep_right; eauto. }
      destruct p;
        try (destruct (pstep F t (inside t) g _) as [[F1 p1]|] eqn:E1 in S; [|discriminate S];
             eapply P; [exact E1|exact S]).
      + inversion S; subst; clear S. destruct CF1 as [C1 C2]. split.
        2:{ constructor; [|constructor]. simpl. destruct r; auto. }
        split; [exact SD|]. split; [intros f; auto|].
        split; [apply CF2|]. split; [|split; [exact FF|]].
        * simpl. intros g' h' J.
          destruct h; simpl in J; try (apply (HO g' h' J)); destruct J as [J|J];
            try (apply (HO g' h' J)); inversion J; subst; auto; intros [X|X]; discriminate.
        * eapply trail_imp; [|exact TR]. intros f. simpl. auto.
      + inversion S; subst; clear S. split; [|repeat constructor]. split; [exact SD|]. split; [intros f; auto|].
        split; [apply only_reads_changes, PB|]. split; [intros g' h' []|]. split.
        * constructor; [|exact FF]. split; [exact HO|]. split; [exact CF1|exact CF2].
        * simpl. split; [|exact TR]. split; [apply PB|auto].
    - destruct gs as [|[g h] gs]; [destruct nx as [[[g c] k]|]|]; inversion S; subst; clear S.
      + split; [|repeat constructor]. split; [exact SD|]. split; [intros f; auto|].
        split; [apply CF|]. split; [exact HO|]. split; [exact FF|]. eapply trail_imp; [|exact TR]. intros f [].
      + split; [|constructor]. split; [exact SD|]. split; [intros f; auto|].
        split; [exact I|]. split; [exact HO|]. split; [exact FF|]. eapply trail_imp; [|exact TR]. intros f [].
      + split; [|constructor].
        destruct (same_values_sound F (release F t g h)) as [S1 M1]; [intros; apply release_value|exact SD|].
        split; [exact S1|]. split; [exact M1|]. eapply fine_mono; [exact M1|].
        split; [exact CF|]. split; [exact HO|]. split; [exact FF|exact TR].
  Qed.

  Lemma fine_act F t a th F' th' ev : builders_left_alone (t, a) -> sound F -> fine F th ->
    act_step inside builder F t a th = Some (F', th', ev) ->
    (sound F' /\ mono F F' /\ fine F' th') /\ Forall right_ret ev.
  Proof.
    intros BA SD FI S. destruct (act_inv _ _ _ _ _ _ _ _ _ S) as [(n & -> & T)|(-> & _ & V & D & E)].
    - eapply fine_tstep; eauto.
    - split; [|constructor]. destruct (same_values_sound F F' V SD) as [S1 M1].
      split; [exact S1|]. split; [exact M1|]. eapply fine_mono; [exact M1|].
      destruct FI as (CF & HO & FF & TR). specialize (E BA).
      destruct D as [(gs & f & c & p & k & EC & _ & ->)|[(gs & fr & st' & I1 & _ & ->)|(gs & ->)]];
        simpl in E; unfold fine; simpl; rewrite ?E; simpl.
      + rewrite EC in CF. destruct CF as [_ CF]. repeat split; auto.
      + rewrite Forall_forall in FF. destruct (FF _ I1) as (H1 & H2 & H3). repeat split; auto.
      + repeat split; auto. intros g h [].
  Qed.

  Definition good (s : sys) : Prop :=
    owned s /\ sound (fields s) /\ Forall (fine (fields s)) (tasks s).

  Lemma good_step s a s' ev : builders_left_alone a -> step inside builder s a = Some (s', ev) -> good s ->
    good s' /\ Forall right_ret ev.
  Proof.
    intros BA S (O & SD & FT). destruct (step_inv _ _ _ _ _ _ S) as (th & th' & N & T & E).
    assert (FI : fine (fields s) th) by (rewrite Forall_forall in FT; apply FT; eapply nth_error_In; eauto).
    destruct a as [t a]. destruct (fine_act _ _ _ _ _ _ _ BA SD FI T) as ((SD' & MO & FI') & RR).
    split; [|exact RR].
    split; [eapply step_owned; eauto|]. split; [exact SD'|]. rewrite E. apply Forall_set; [|exact FI'].
    eapply Forall_impl; [|exact FT]. intros x. now apply fine_mono.
  Qed.

  Lemma good_start ps : Forall changes_nothing ps -> good (start v0 ps).
  Proof.
    intros P. split; [apply start_owned|]. split.
    - split; simpl; intros f; [intros v E; now apply means_given|auto].
    - unfold start. simpl. rewrite Forall_forall in *. intros th I.
      apply in_map_iff in I. destruct I as (p & <- & I). split; [apply P; exact I|].
      split; [intros g h []|]. simpl. auto.
  Qed.

  Lemma good_run l s s' ev : Forall builders_left_alone l -> run inside builder s l = Some (s', ev) ->
    good s -> good s' /\ Forall right_ret ev.
  Proof.
    intros BA R G. eapply (run_ind_ev inside builder builders_left_alone good right_ret); eauto.
    intros. eapply good_step; eauto.
  Qed.

  (** A builder that succeeds runs at most once more than it is disturbed. *)
  Section Once.
    Variable f : fid.
    Variable v : nat.
    Hypothesis M : means f (BOk v).

    Definition busy_task (th : task) : Prop :=
      (exists fr, In fr (stack th) /\ fr_field fr = f) \/
      (exists c m w k, code_of th = Call f c (I_SetVal m w) k).

    Definition busy (s : sys) : Prop :=
      exists t th, nth_error (tasks s) t = Some th /\ busy_task th.

    Definition about_to (th : task) : Prop :=
      exists c m k, code_of th = Call f c (I_GetBld m) k \/ code_of th = Call f c (I_Build m) k.

    Definition once (s : sys) (d n : nat) : Prop :=
      (forall t th, nth_error (tasks s) t = Some th -> about_to th -> value (fields s f) = None) /\
      (n >= 1 + d -> value (fields s f) <> None \/ busy s) /\ n <= 1 + d.

    Lemma value_change F t n th F' th' ev : fine F th ->
      tstep inside builder F t n th = Some (F', th', ev) -> value (F f) = None -> value (F' f) <> None ->
      exists c m w k, code_of th = Call f c (I_SetVal m w) k.
    Proof.
      intros (CF & _) S V V'. destruct th as [c l st]. simpl in *. unfold tstep in S. simpl in S.
      destruct c as [[o|g c k]|g c p k|gs nx].
      - destruct l as [|[g h] rest]; [destruct st; [discriminate|inversion S; subst; congruence]|].
        inversion S; subst. rewrite release_value in V'. congruence.
      - destruct (through_guard c).
        + destruct (take_guard g l) as [[h l']|]; [|discriminate].
          destruct (enter_guard h c); [|discriminate]. inversion S; subst. congruence.
        + destruct (enter c); [|discriminate]. inversion S; subst. congruence.
      - destruct CF as [K _].
        assert (P : forall F1 p1, pstep F t (inside t) g p = Some (F1, p1) -> F' = F1 ->
                    exists c0 m w k0, Call g c p k = Call f c0 (I_SetVal m w) k0).
        { intros F1 p1 E1 <-. destruct (pstep_same _ _ _ _ _ _ _ E1 K) as [(m & w & -> & ->)|E].
          - unfold upd in V'. destruct (Nat.eqb_spec f g); [subst; eauto 6|congruence].
          - rewrite E in V'. congruence. }
        destruct p;
          try (destruct (pstep F t (inside t) g _) as [[F1 p1]|] eqn:E1 in S; [|discriminate S];
               eapply P; [exact E1|inversion S; reflexivity]); inversion S; subst; congruence.
      - destruct gs as [|[g h] gs]; [destruct nx as [[[g c] k]|]|]; inversion S; subst; try congruence.
        rewrite release_value in V'. congruence.
    Qed.

    Lemma to_build F t n th F' th' ev : (about_to th -> value (F f) = None) ->
      tstep inside builder F t n th = Some (F', th', ev) -> about_to th' ->
      F' = F /\ value (F f) = None.
    Proof.
      intros AB S (cc & m & k & E). destruct th as [c l st]. unfold tstep in S. simpl in S.
      destruct c as [[o|g c k0]|g c p k0|gs nx].
      - destruct l as [|[g h] rest]; [destruct st; [discriminate|]|]; inversion S; subst; simpl in E;
          destruct E as [E|E]; inversion E; destruct o; discriminate.
      - destruct (through_guard c).
        + destruct (take_guard g l) as [[h l']|]; [|discriminate].
          destruct (enter_guard h c) eqn:EG; [|discriminate]. inversion S; subst. simpl in E.
          destruct E as [E|E]; inversion E; subst;
            destruct h, cc as [[]| | |]; simpl in EG; discriminate.
        + destruct (enter c) eqn:EG; [|discriminate]. inversion S; subst. simpl in E.
          destruct E as [E|E]; inversion E; subst; destruct cc as [[]| | |]; simpl in EG; discriminate.
      - assert (P : forall F1 p1, pstep F t (inside t) g p = Some (F1, p1) ->
                    Some (F1, mktask (Call g c p1 k0) l st, @nil tevent) = Some (F', th', ev) ->
                    F' = F /\ value (F f) = None).
        { intros F1 p1 E1 E2. inversion E2; subst. simpl in E.
          assert (Q : g = f /\ (p1 = I_GetBld m \/ p1 = I_Build m)) by (destruct E as [E|E]; inversion E; auto).
          destruct Q as (-> & Q).
          destruct p; try (step_cases E1; destruct Q; discriminate).
          - simpl in E1. destruct (value (F f)) eqn:V; inversion E1; subst; auto. destruct Q; discriminate.
          - simpl in E1. inversion E1; subst. split; [reflexivity|]. apply AB. exists c, m0, k0. auto. }
        destruct p;
          try (destruct (pstep F t (inside t) g _) as [[F1 p1]|] eqn:E1 in S; [|discriminate S];
               eapply P; [exact E1|exact S]);
          inversion S; subst; simpl in E; destruct E; discriminate.
      - destruct gs as [|[g h] gs]; [destruct nx as [[[g c] k0]|]|]; inversion S; subst; simpl in E;
          destruct E; discriminate.
    Qed.

    Lemma starts_app a b : tstarts f (a ++ b) = tstarts f a + tstarts f b.
    Proof.
      induction a as [|[t g|t g o|t g c r] a IH]; simpl; [reflexivity| |exact IH|exact IH]. rewrite IH. lia.
    Qed.

    Lemma step_starts F t n th F' th' ev : tstep inside builder F t n th = Some (F', th', ev) ->
      tstarts f ev = 0 \/ (tstarts f ev = 1 /\ about_to th /\ busy_task th').
    Proof.
      intros S. destruct th as [c l st]. unfold tstep in S. simpl in S.
      destruct c as [[o|g c k0]|g c p k0|gs nx].
      - destruct l as [|[g h] rest]; [destruct st; [discriminate|]|]; inversion S; subst; auto.
      - destruct (through_guard c).
        + destruct (take_guard g l) as [[h l']|]; [|discriminate].
          destruct (enter_guard h c); [|discriminate]. inversion S; subst; auto.
        + destruct (enter c); [|discriminate]. inversion S; subst; auto.
      - destruct p;
          try (destruct (pstep F t (inside t) g _) as [[F1 p1]|] eqn:E1 in S; [|discriminate S];
               inversion S; subst; auto; fail).
        + inversion S; subst; auto.
        + inversion S; subst. simpl. destruct (Nat.eqb_spec g f); [subst|auto]. right.
          split; [reflexivity|]. split; [exists c, m, k0; right; reflexivity|].
          left. eexists. split; [left; reflexivity|reflexivity].
      - destruct gs as [|[g h] gs]; [destruct nx as [[[g c] k0]|]|]; inversion S; subst; auto.
    Qed.

    Lemma busy_own th : busy_task th -> In (f, KW) (owns th).
    Proof.
      unfold owns. intros [(fr & I & <-)|(c & m & w & k & E)].
      - apply in_or_app. right. apply in_or_app. right. now apply frame_owns.
      - rewrite E. left. reflexivity.
    Qed.

    Lemma about_own th : about_to th -> In (f, KW) (owns th).
    Proof. unfold owns. intros (c & m & k & [E|E]); rewrite E; left; reflexivity. Qed.

    Lemma not_both s t th : owned s -> nth_error (tasks s) t = Some th ->
      about_to th -> busy_task th -> False.
    Proof.
      intros A N (c & m & k & E) [(fr & I & EF)|(c' & m' & w & k' & E')]; [|destruct E; congruence].
      specialize (A t f). unfold owns_at in A. rewrite N in A. destruct A as (A & _).
      assert (G : cnt KW f (own_held (held th) ++ own_stack (stack th)) > 0).
      { apply cnt_in. apply in_or_app. right. rewrite <- EF. now apply frame_owns. }
      assert (L : at_most (lw (fields s f)) t <= 1).
      { unfold at_most. destruct (lw (fields s f)) as [x|]; [destruct (Nat.eqb x t)|]; lia. }
      unfold owns in A. destruct E as [E|E]; rewrite E in A; simpl in A; rewrite Nat.eqb_refl in A; lia.
    Qed.

    Lemma still_busy F t n th F' th' ev : sound F -> fine F th ->
      tstep inside builder F t n th = Some (F', th', ev) -> busy_task th ->
      busy_task th' \/ value (F' f) <> None.
    Proof.
      intros SD (CF & HO & FF & TR) S BT. destruct th as [c l st]. simpl in *.
      unfold tstep in S. simpl in S. destruct c as [[o|g c k]|g c p k|gs nx].
      - destruct BT as [(fr & I & EF)|(c & m & w & k & E)]; [|discriminate].
        destruct l as [|[g h] rest].
        + destruct st as [|fr0 st]; [discriminate|]. inversion S; subst; clear S. simpl in *.
          destruct TR as [TR1 TR2]. inversion FF as [|? ? FF1 FF2]; subst. destruct FF1 as (H1 & H2 & H3).
          destruct I as [<-|I]; [|left; left; exists fr; auto].
          assert (MO : means (fr_field fr0) o).
          { apply means_built; [exact H2|]. apply TR1. constructor. }
          rewrite EF in *. rewrite <- (GraphProofs.means_unique _ _ _ _ M _ MO). left. right. simpl. eauto 6.
        + inversion S; subst. left. left. exists fr. auto.
      - destruct BT as [(fr & I & EF)|(c' & m & w & k' & E)]; [|discriminate].
        destruct (through_guard c).
        + destruct (take_guard g l) as [[h l']|]; [|discriminate].
          destruct (enter_guard h c); [|discriminate]. inversion S; subst. left. left. exists fr. auto.
        + destruct (enter c); [|discriminate]. inversion S; subst. left. left. exists fr. auto.
      - destruct BT as [(fr & I & EF)|(c' & m & w & k' & E)].
        + left. left. exists fr. split; [|exact EF].
          destruct p;
            try (destruct (pstep F t (inside t) g _) as [[F1 p1]|] eqn:E1 in S; [|discriminate S];
                 inversion S; subst; exact I); inversion S; subst; [exact I|right; exact I].
        + inversion E; subst. simpl in S. inversion S; subst. right. unfold upd. rewrite Nat.eqb_refl. discriminate.
      - destruct BT as [(fr & I & EF)|(c' & m & w & k' & E)]; [|discriminate].
        destruct gs as [|[g h] gs]; [destruct nx as [[[g c] k0]|]|]; inversion S; subst;
          left; left; exists fr; auto.
    Qed.

    Lemma once_step s a s' ev d n : builders_left_alone a -> step inside builder s a = Some (s', ev) ->
      good s -> once s d n -> once s' (d + disturbances [a]) (n + tstarts f ev).
    Proof.
      intros BA S (O & SD & FT) (I1 & I2 & I3). destruct (step_inv _ _ _ _ _ _ S) as (th & th' & N & T & E).
      assert (FI : fine (fields s) th) by (rewrite Forall_forall in FT; apply FT; eapply nth_error_In; eauto).
      destruct a as [t a].
      destruct (fine_act _ _ _ _ _ _ _ BA SD FI T) as ((SD' & MO & FI') & _). simpl in N, T, E.
      assert (NTH : forall u x, nth_error (tasks s') u = Some x ->
                (u = t /\ x = th') \/ (u <> t /\ nth_error (tasks s) u = Some x)).
      { intros u x. rewrite E. destruct (Nat.eq_dec t u) as [<-|D].
        - rewrite (nth_set_same _ _ _ _ N). intros H; inversion H; auto.
        - rewrite (nth_set_other _ _ _ _ D). auto. }
      destruct (act_inv _ _ _ _ _ _ _ _ _ T) as [(m & -> & T1)|(-> & NG & V & D & _)].
      - simpl (disturbances _). rewrite Nat.add_0_r. clear T. rename T1 into T.
        assert (OWN : forall t1 t2 x1 x2, nth_error (tasks s) t1 = Some x1 -> nth_error (tasks s) t2 = Some x2 ->
                  In (f, KW) (owns x1) -> In (f, KW) (owns x2) -> t1 = t2).
        { intros t1 t2 x1 x2 N1 N2 O1 O2. pose proof (owner_lw _ _ _ _ O N1 O1).
          pose proof (owner_lw _ _ _ _ O N2 O2). congruence. }
        assert (BUSY : busy s -> value (fields s' f) <> None \/ busy s').
        { intros (u & x & Nx & Bx). destruct (Nat.eq_dec t u) as [<-|D].
          - rewrite N in Nx. inversion Nx; subst x.
            destruct (still_busy _ _ _ _ _ _ _ SD FI T Bx) as [B|V]; [|auto].
            right. exists t, th'. split; [|exact B]. rewrite E. eapply nth_set_same; eauto.
          - right. exists u, x. split; [|exact Bx]. rewrite E, (nth_set_other _ _ _ _ D). exact Nx. }
        split; [|split].
        + intros u x Nx AB. destruct (NTH u x Nx) as [(-> & ->)|(D & N0)].
          * destruct (to_build _ _ _ _ _ _ _ (I1 _ _ N) T AB) as [EF V]. rewrite EF. exact V.
          * pose proof (I1 _ _ N0 AB) as V. destruct (value (fields s' f)) eqn:V'; [|reflexivity].
            exfalso. destruct (value_change _ _ _ _ _ _ _ FI T V) as (c & m' & w & k & EC); [congruence|].
            apply D. eapply OWN; [exact N0|exact N|now apply about_own|].
            apply busy_own. right. eauto 6.
        + intros G. destruct (step_starts _ _ _ _ _ _ _ T) as [Z|(Z & AB & BT)].
          * destruct I2 as [V|B]; [lia|left; now apply MO|auto].
          * right. exists t, th'. split; [|exact BT]. rewrite E. eapply nth_set_same; eauto.
        + destruct (step_starts _ _ _ _ _ _ _ T) as [Z|(Z & AB & BT)]; [lia|].
          destruct (le_lt_dec (1 + d) n) as [GE|LT]; [exfalso|lia].
          destruct (I2 GE) as [V|(u & x & Nx & Bx)]; [apply V; eapply I1; eauto|].
          assert (u = t) by (eapply OWN; [exact Nx|exact N|now apply busy_own|now apply about_own]).
          subst u. rewrite N in Nx. inversion Nx; subst x. eapply not_both; eauto.
      - assert (DD : disturbances [(t, a)] = 1) by (destruct a; try reflexivity; now specialize (NG n0)).
        rewrite DD. simpl (tstarts _ _). split; [|split]; try lia.
        intros u x Nx AB. rewrite V. destruct (NTH u x Nx) as [(-> & ->)|(D0 & N0)]; [|eauto].
        destruct AB as (c & m & k & AB).
        destruct D as [(gs & f0 & c0 & p & k0 & _ & _ & ->)|[(gs & fr & st' & _ & _ & ->)|(gs & ->)]];
          simpl in AB; destruct AB; discriminate.
    Qed.

    Lemma dist_cons a l : disturbances (a :: l) = disturbances [a] + disturbances l.
    Proof. destruct a as [t []]; reflexivity. Qed.

    Lemma once_run l s s' ev d n : Forall builders_left_alone l -> run inside builder s l = Some (s', ev) ->
      good s -> once s d n -> once s' (d + disturbances l) (n + tstarts f ev).
    Proof.
      revert s ev d n. induction l as [|a l IH]; intros s ev d n BA R G OI.
      - simpl in R. inversion R; subst. simpl. now rewrite !Nat.add_0_r.
      - rewrite dist_cons, Nat.add_assoc. simpl in R.
        destruct (step inside builder s a) as [[s1 e1]|] eqn:S; [|discriminate].
        destruct (run inside builder s1 l) as [[s2 e2]|] eqn:R2; [|discriminate]. inversion R; subst.
        inversion BA; subst. rewrite starts_app, Nat.add_assoc.
        eapply IH; eauto; [eapply good_step; eauto|]. eapply once_step; eauto.
    Qed.

    Lemma once_start ps : once (start v0 ps) 0 0.
    Proof.
      split; [|split]; try lia. intros t th N (c & m & k & E). apply nth_error_In in N.
      unfold start in N. simpl in N. apply in_map_iff in N. destruct N as (p & <- & _).
      destruct E; discriminate.
    Qed.
  End Once.
End Graph.
