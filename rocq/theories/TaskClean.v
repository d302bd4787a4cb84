(** What dropped futures and aborted tasks leave behind (proof support for property
    C60). *)
From Coq Require Import List Bool Arith Lia.
From Verif Require Import ProxyTypes MultiSpec TaskSpec TaskModel TaskOwn TaskOrder TaskTerm TaskTrap.
Import ListNotations.

(** The guards kept by the task's own code: those of the outermost call. *)
Definition own_guards (th : task) : guards := last (map fr_held (stack th)) (held th).

(** Task [t] has exactly the locks of the guards [l], and waits for nothing. *)
Definition only_locks_of (F : cells) (t : tid) (l : guards) : Prop :=
  forall g,
    (lw (F g) = Some t -> In (g, HM) l \/ In (g, HW) l) /\
    (In t (lr (F g)) -> In (g, HR) l) /\
    (forall w, ~ In (t, w) (lq (F g))).

Definition same_values (F F' : cells) : Prop :=
  forall g, value (F' g) = value (F g) /\ flag (F' g) = flag (F g).

Lemma same_refl F : same_values F F.
Proof. split; reflexivity. Qed.

Lemma same_trans F G H : same_values F G -> same_values G H -> same_values F H.
Proof. intros A B g. destruct (A g), (B g). split; congruence. Qed.

Lemma release_same F t f h : same_values F (release F t f h).
Proof.
  intros g. destruct h; simpl; auto; unfold upd; destruct (Nat.eqb_spec g f); subst; auto.
Qed.

Lemma innermost_same F t c F' gs : innermost F t c = Some (F', gs) -> same_values F F'.
Proof.
  destruct c as [p|f c p k|gs0 nx]; simpl; try discriminate; [intros E; inversion E; apply same_refl|].
  destruct (at_await p); [|discriminate]. intros E; inversion E; subst.
  intros g. unfold upd. destruct (Nat.eqb_spec g f); subst; auto.
Qed.

Lemma held_kind l f kd : In (f, kd) (own_held l) ->
  (kd = KW -> In (f, HM) l \/ In (f, HW) l) /\ (kd = KR -> In (f, HR) l) /\ kd <> KQ.
Proof.
  induction l as [|[g h] l IH]; simpl; [tauto|]. intros I. apply in_app_or in I. destruct I as [I|I].
  - destruct h; simpl in I; try tauto; destruct I as [I|[]]; inversion I; subst;
      (split; [|split]); intros; try discriminate; auto.
  - destruct (IH I) as (A & B & C). split; [|split]; auto. intros K. destruct (A K); auto.
Qed.

Lemma only_locks s t th l : owned s -> nth_error (tasks s) t = Some th -> owns th = own_held l ->
  only_locks_of (fields s) t l.
Proof.
  intros O N E g. specialize (O t g). unfold owns_at in O. rewrite N, E in O. destruct O as (OW & OR & OQ).
  split; [|split].
  - intros W. rewrite W, at_most_self in OW.
    assert (I : In (g, KW) (own_held l)) by (apply cnt_in; lia). now apply (held_kind _ _ _ I).
  - intros I. apply times_in in I. assert (J : In (g, KR) (own_held l)) by (apply cnt_in; lia).
    now apply (held_kind _ _ _ J).
  - intros w I. assert (J : queued t (lq (fields s g)) > 0) by (apply queued_in; eauto).
    rewrite held_no_q in OQ. lia.
Qed.

Lemma unwind_held n st gs fr st' d : unwind n st = Some (gs, fr, st') -> length st = S n ->
  fr_held fr = last (map fr_held st) d.
Proof.
  revert st gs. induction n as [|n IH]; intros [|x st] gs E L; simpl in E, L; try discriminate.
  - inversion E; subst. destruct st'; [reflexivity|discriminate].
  - destruct (unwind n st) as [[[gs1 fr1] st1]|] eqn:U; [|discriminate]. inversion E; subst.
    rewrite (IH _ _ U) by lia. destruct st; [discriminate|reflexivity].
Qed.

Section Clean.
  Variable inside : tid -> bool.
  Variable builder : fid -> nat -> prog.

  Lemma leave_runs gs : forall s t nx l st, nth_error (tasks s) t = Some (mktask (Leave gs nx) l st) ->
    exists s' ev, run inside builder s (repeat (t, Go 0) (S (length gs))) = Some (s', ev) /\
      same_values (fields s) (fields s') /\
      match nx with
      | Some (f, c, k) => ev = [TRet t f c RCancelled] /\
                          nth_error (tasks s') t = Some (mktask (User (k RCancelled)) l st)
      | None => ev = [] /\ nth_error (tasks s') t = Some (mktask (User (PEnd BPanic)) l st)
      end.
  Proof.
    induction gs as [|[f h] gs IH]; intros s t nx l st N.
    - simpl. unfold step. simpl. rewrite N. unfold tstep. simpl.
      destruct nx as [[[f c] k]|]; (do 2 eexists; split; [reflexivity|]); split; try apply same_refl;
        (split; [reflexivity|]); simpl; eapply nth_set_same; eauto.
    - change (repeat (t, Go 0) (S (length ((f, h) :: gs)))) with ((t, Go 0) :: repeat (t, Go 0) (S (length gs))).
      cbn [run]. unfold step at 1. cbn [fst snd]. rewrite N. cbn [act_step].
      unfold tstep at 1. cbn [code_of held stack].
      destruct (IH (mksys (release (fields s) t f h) (set_nth t (tasks s) (mktask (Leave gs nx) l st))) t nx l st)
        as (s' & ev & R & V & X).
      { simpl. eapply nth_set_same; eauto. }
      rewrite R. exists s', ev. split; [reflexivity|]. split; [|exact X].
      eapply same_trans; [|exact V]. apply release_same.
  Qed.

  Lemma run_app s l1 l2 s1 e1 s2 e2 :
    run inside builder s l1 = Some (s1, e1) -> run inside builder s1 l2 = Some (s2, e2) ->
    run inside builder s (l1 ++ l2) = Some (s2, e1 ++ e2).
  Proof.
    revert s e1. induction l1 as [|a l1 IH]; intros s e1 R1 R2; simpl in *.
    - inversion R1; subst. exact R2.
    - destruct (step inside builder s a) as [[s0 e0]|]; [|discriminate].
      destruct (run inside builder s0 l1) as [[s3 e3]|] eqn:R; [|discriminate]. inversion R1; subst.
      rewrite (IH _ _ R R2). now rewrite app_assoc.
  Qed.

  Lemma aborted s t s1 ev : owned s -> step inside builder s (t, Abort) = Some (s1, ev) ->
    exists n s2, run inside builder s1 (repeat (t, Go 0) n) = Some (s2, []) /\
      only_locks_of (fields s2) t [] /\ same_values (fields s) (fields s2) /\
      exists th, nth_error (tasks s2) t = Some th /\ finished th = true.
  Proof.
    intros O S. destruct (step_inv _ _ _ _ _ _ S) as (th & th' & N & T & E). simpl in N, T, E.
    destruct (finished th); [discriminate|].
    destruct (innermost (fields s) t (code_of th)) as [[F1 gs]|] eqn:I; [|discriminate].
    inversion T; subst; clear T.
    match type of E with context [Leave ?g None] => set (gg := g) in * end.
    destruct (leave_runs gg s1 t None [] []) as (s2 & e2 & R & V & -> & N2).
    { rewrite E. eapply nth_set_same; eauto. }
    exists (Datatypes.S (length gg)), s2. split; [exact R|]. split; [|split].
    - eapply only_locks; [|exact N2|reflexivity]. eapply (run_ind inside builder owned); eauto using step_owned.
    - eapply same_trans; [|exact V]. eapply innermost_same; eauto.
    - eexists. split; [exact N2|reflexivity].
  Qed.

  Lemma dropped s t s1 ev th : owned s -> nth_error (tasks s) t = Some th ->
    step inside builder s (t, DropOwn) = Some (s1, ev) ->
    exists n s2 f c (k : res nat nat -> prog), run inside builder s1 (repeat (t, Go 0) n) = Some (s2, [TRet t f c RCancelled]) /\
      only_locks_of (fields s2) t (own_guards th) /\ same_values (fields s) (fields s2) /\
      nth_error (tasks s2) t = Some (mktask (User (k RCancelled)) (own_guards th) []).
  Proof.
    intros O N0 S. destruct (step_inv _ _ _ _ _ _ S) as (th0 & th' & N & T & E). simpl in N, T, E.
    rewrite N0 in N. inversion N; subst th0. clear N.
    assert (G : exists F1 gs f c k, th' = mktask (Leave gs (Some (f, c, k))) (own_guards th) [] /\
                fields s1 = F1 /\ same_values (fields s) F1).
    { destruct (length (stack th)) as [|n] eqn:L.
      - apply length_zero_iff_nil in L.
        destruct (drop_call (fields s) t th) as [[F1 th1]|] eqn:D; [|discriminate]. injection T as EF ET EV. subst th1.
        unfold drop_call in D. destruct (code_of th) as [p|f c p k|gs nx]; try discriminate.
        destruct (innermost (fields s) t (Call f c p k)) as [[F2 gs]|] eqn:I; [|discriminate].
        injection D as D1 D2. subst th'. unfold own_guards. rewrite L. simpl.
        exists (fields s1), gs, f, c, k. split; [reflexivity|]. split; [reflexivity|].
        rewrite <- EF, <- D1. eapply innermost_same; eauto.
      - destruct (drop_frame (fields s) t th n) as [[F1 th1]|] eqn:D; [|discriminate]. injection T as EF ET EV. subst th1.
        unfold drop_frame in D.
        destruct (innermost (fields s) t (code_of th)) as [[F2 gs]|] eqn:I; [|discriminate].
        destruct (unwind n (stack th)) as [[[gs1 fr] st1]|] eqn:U; [|discriminate]. injection D as D1 D2. subst th'.
        rewrite (unwind_last _ _ _ _ _ U L).
        rewrite (unwind_held _ _ _ _ _ (held th) U L).
        do 5 eexists. split; [reflexivity|]. split; [reflexivity|]. rewrite <- EF, <- D1. eapply innermost_same; eauto. }
    destruct G as (F1 & gs & f & c & k & -> & EF & V1).
    destruct (leave_runs gs s1 t (Some (f, c, k)) (own_guards th) []) as (s2 & e2 & R & V & -> & N2).
    { rewrite E. eapply nth_set_same; eauto. }
    exists (Datatypes.S (length gs)), s2, f, c, k. split; [exact R|]. split; [|split; [|exact N2]].
    - eapply only_locks; [|exact N2|unfold owns; simpl; apply app_nil_r].
      eapply (run_ind inside builder owned); eauto using step_owned.
    - eapply same_trans; [|exact V]. rewrite EF. exact V1.
  Qed.
End Clean.
