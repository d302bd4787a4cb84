(** Facts about the cell of GuardCell.v. *)
From Coq Require Import List Bool Arith.
From Verif Require Import ProxyTypes AtomicCell GuardCell.
Import ListNotations.

Section Facts.
  Context {V E : Type}.
  Variable bld : nat -> outcome V E.

  Definition held (x : gstat V E) : hold := match x with GIdle h | GCalled h _ | GDone h _ => h end.
  Definition sR (x : gstat V E) : Prop := held x = HR.
  Definition sW (x : gstat V E) : Prop := held x = HM \/ held x = HW.

  (** An effect keeps track of the guards. *)
  Lemma effect_guards solo (a : aid) h o (c c' : gcell V) h' (r : res V E) (x : aid -> gstat V E) :
    effect solo bld a h o c = Some (c', h', r) -> x a = GCalled h o ->
    (forall b, In b (g_rd c) <-> sR (x b)) -> (forall b, g_wr c = Some b <-> sW (x b)) ->
    (forall b, In b (g_rd c') <-> sR (gset x a (GDone h' r) b)) /\
    (forall b, g_wr c' = Some b <-> sW (gset x a (GDone h' r) b)).
  Proof.
    intros Ef Xa HR1 HW1.
    assert (Sa : held (x a) = h) by (rewrite Xa; reflexivity).
    assert (same : h' = h -> g_rd c' = g_rd c -> g_wr c' = g_wr c ->
      (forall b, In b (g_rd c') <-> sR (gset x a (GDone h' r) b)) /\
      (forall b, g_wr c' = Some b <-> sW (gset x a (GDone h' r) b))).
    { intros -> R1 W1. rewrite R1, W1. unfold gset. split; intros b; destruct (Nat.eqb_spec b a) as [->|N]; auto;
        [rewrite HR1|rewrite HW1]; unfold sR, sW; cbn; rewrite Sa; tauto. }
    assert (reader : h = HNone -> h' = HR -> g_rd c' = a :: g_rd c -> g_wr c' = g_wr c ->
      (forall b, In b (g_rd c') <-> sR (gset x a (GDone h' r) b)) /\
      (forall b, g_wr c' = Some b <-> sW (gset x a (GDone h' r) b))).
    { intros -> -> R1 W1. rewrite R1, W1. unfold gset. split; intros b; destruct (Nat.eqb_spec b a) as [->|N]; cbn.
      - unfold sR; cbn; intuition.
      - rewrite HR1. intuition congruence.
      - rewrite HW1. unfold sW. rewrite Sa. cbn. intuition discriminate.
      - apply HW1. }
    assert (writer : h = HNone -> h' = HM \/ h' = HW -> g_rd c' = g_rd c -> g_wr c' = Some a -> free c = true ->
      (forall b, In b (g_rd c') <-> sR (gset x a (GDone h' r) b)) /\
      (forall b, g_wr c' = Some b <-> sW (gset x a (GDone h' r) b))).
    { intros -> Hh R1 W1 F. rewrite R1, W1. unfold free, open in F.
      destruct (g_wr c) eqn:W0; [discriminate F|]. destruct (g_rd c) eqn:R0; [|discriminate F].
      unfold gset. split; intros b; destruct (Nat.eqb_spec b a) as [->|N]; cbn.
      - unfold sR; cbn. destruct Hh as [-> | ->]; intuition discriminate.
      - rewrite <- (HR1 b). cbn. tauto.
      - unfold sW; cbn. tauto.
      - rewrite <- (HW1 b). intuition congruence. }
    assert (gr : forall v c0 o0, o0 = o -> h = HNone -> grant a o0 v c0 = (c', h', r) -> g_rd c0 = g_rd c -> g_wr c0 = g_wr c ->
      (for_writing o0 = true -> free c = true) ->
      (forall b, In b (g_rd c') <-> sR (gset x a (GDone h' r) b)) /\
      (forall b, g_wr c' = Some b <-> sW (gset x a (GDone h' r) b))).
    { intros v c0 o0 -> Hn G R0 W0 F. destruct o; cbn in G; injection G as <- <- <-; cbn in *;
        first [apply reader; cbn; congruence | apply writer; cbn; auto; congruence | apply same; cbn; congruence]. }
    assert (rdrop : h = HR -> (forall b, In b (g_rd (del_reader a c)) <-> sR (gset x a (@GDone V E HNone RUnit) b)) /\
      (forall b, g_wr c = Some b <-> sW (gset x a (@GDone V E HNone RUnit) b))).
    { intros ->. unfold gset. split; intros b; destruct (Nat.eqb_spec b a) as [->|N]; cbn.
      - rewrite filter_In, Nat.eqb_refl. unfold sR; cbn. intuition discriminate.
      - rewrite filter_In, HR1. destruct (Nat.eqb_spec b a); [congruence|]. cbn. tauto.
      - rewrite HW1. unfold sW. rewrite Sa. cbn. intuition discriminate.
      - apply HW1. }
    assert (wdrop : h = HM \/ h = HW -> (forall b, In b (g_rd c) <-> sR (gset x a (@GDone V E HNone RUnit) b)) /\
      (forall b, None = Some b <-> sW (gset x a (@GDone V E HNone RUnit) b))).
    { intros Hh. unfold gset. assert (W0 : g_wr c = Some a) by (apply HW1; unfold sW; rewrite Sa; auto).
      split; intros b; destruct (Nat.eqb_spec b a) as [->|N]; cbn.
      - rewrite HR1. unfold sR. rewrite Sa. cbn. destruct Hh as [-> | ->]; intuition discriminate.
      - apply HR1.
      - unfold sW; cbn. intuition discriminate.
      - rewrite <- HW1, W0. intuition congruence. }
    destruct solo, h, o; cbn in Ef; try discriminate Ef;
      repeat match type of Ef with
             | context [match g_val c with _ => _ end] => destruct (g_val c) eqn:?
             | (if free c then _ else _) = _ => destruct (free c) eqn:?
             | (if open c then _ else _) = _ => destruct (open c) eqn:?
             | context [match bld ?i with _ => _ end] => destruct (bld i)
             end; try discriminate Ef;
      cbn in Ef; injection Ef as <- <- <-; cbn in *;
      first [ apply same; cbn; congruence
            | eapply gr; [reflexivity|reflexivity|cbn; reflexivity|..]; cbn; congruence
            | apply reader; cbn; congruence | apply writer; cbn; auto; congruence | apply rdrop; reflexivity | apply wdrop; cbn; auto ].
  Qed.

End Facts.
