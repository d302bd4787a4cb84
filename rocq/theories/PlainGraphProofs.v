(** Proof support for property C18, plain lazy fields. *)
From Coq Require Import List Bool Arith Lia.
From Verif Require Import ProxyTypes MultiSpec GraphSpec PlainGraphModel GraphProofs.
Import ListNotations.

Section Plain.
  Variable v0 : fid -> option nat.
  Variable bld : fid -> prog.
  Variable rank : fid -> nat.
  Hypothesis PB : forall f, only_plain_reads (bld f).
  Hypothesis RB : forall f, reads_below rank (rank f) (bld f).
  Notation means := (means v0 bld).
  Notation yields := (yields v0 bld).

  Definition psound (S : pcells) : Prop :=
    (forall f v, S f = Some v -> means f (BOk v)) /\ (forall f, v0 f <> None -> S f <> None).

  Definition pmono (S S' : pcells) : Prop := forall f v, S f = Some v -> S' f = Some v.

  (** A good run: sound, monotone, touches only fields below [n], and starts a
      builder only for a field that was unset; once if it becomes set. *)
  Definition plain_good (n : nat) (S S' : pcells) (e : list bevent) : Prop :=
    psound S' /\ pmono S S' /\
    (forall f, n <= rank f -> S' f = S f /\ starts f e = 0) /\
    (forall f v, S f = Some v -> starts f e = 0) /\
    (forall f v, means f (BOk v) -> starts f e <= 1 /\ (starts f e = 1 -> S' f <> None)).

  Lemma starts_app f a b : starts f (a ++ b) = starts f a + starts f b.
  Proof.
    induction a as [|[t g|t g o] a IH]; simpl; [reflexivity| |exact IH]. rewrite IH. lia.
  Qed.

  Lemma good_nil n S : psound S -> plain_good n S S [].
  Proof.
    intros H. split; [exact H|]. split; [intros f v; auto|]. split; [auto|]. split; [auto|].
    intros f v M. simpl. split; [lia|lia].
  Qed.

  Lemma good_app n S S1 S2 e1 e2 : plain_good n S S1 e1 -> plain_good n S1 S2 e2 -> plain_good n S S2 (e1 ++ e2).
  Proof.
    intros (A1 & A2 & A3 & A4 & A5) (B1 & B2 & B3 & B4 & B5).
    split; [exact B1|]. split; [intros f v H; auto|]. split; [|split].
    - intros f L. destruct (A3 f L) as [X1 X2]. destruct (B3 f L) as [Y1 Y2].
      rewrite starts_app. split; [congruence|lia].
    - intros f v H. rewrite starts_app, (A4 f v H), (B4 f v (A2 f v H)). reflexivity.
    - intros f v M. rewrite starts_app. destruct (A5 f v M) as [X1 X2]. destruct (B5 f v M) as [Y1 Y2].
      destruct (Nat.eq_dec (starts f e1) 0) as [Z|Z]; [rewrite Z; simpl; auto|].
      assert (E : starts f e1 = 1) by lia. specialize (X2 E).
      destruct (S1 f) as [w|] eqn:SF; [|congruence].
      rewrite (B4 f w SF). split; [lia|]. intros _. rewrite (B2 f w SF). discriminate.
  Qed.

  Lemma pcode_good n get :
    (forall S f, rank f < n -> psound S ->
       exists S1 o e, get S f = Some (S1, o, e) /\ means f o /\ plain_good n S S1 e) ->
    forall p S, only_plain_reads p -> reads_below rank n p -> psound S ->
      exists S1 o e, pcode get S p = Some (S1, o, e) /\ yields p o /\ plain_good n S S1 e.
  Proof.
    intros HG. induction p as [o|f c k IH]; intros S OP RD SD.
    - exists S, o, []. split; [reflexivity|]. split; [constructor|now apply good_nil].
    - destruct OP as [OP1 OP2]. destruct RD as [RD1 RD2].
      destruct c as [[]| | |]; try (destruct OP1; fail).
      + destruct (HG S f (RD1 ltac:(discriminate)) SD) as (S1 & o & e1 & E1 & M & G1).
        destruct (IH (accessor_result (Proxy ORead) o) S1 (OP2 _) (RD2 _)) as (S2 & o2 & e2 & E2 & Y & G2);
          [apply G1|].
        exists S2, o2, (e1 ++ e2). simpl. rewrite E1. simpl in E2. rewrite E2. split; [reflexivity|].
        split; [|eapply good_app; eauto]. eapply yields_read; [exact M|]. destruct o; exact Y.
      + destruct (HG S f (RD1 ltac:(discriminate)) SD) as (S1 & o & e1 & E1 & M & G1).
        destruct (IH (accessor_result (Proxy OTryRead) o) S1 (OP2 _) (RD2 _)) as (S2 & o2 & e2 & E2 & Y & G2);
          [apply G1|].
        exists S2, o2, (e1 ++ e2). simpl. rewrite E1. simpl in E2. rewrite E2. split; [reflexivity|].
        split; [|eapply good_app; eauto]. eapply yields_try; [exact M|]. destruct o; exact Y.
      + destruct (IH RUnit S (OP2 _) (RD2 _) SD) as (S2 & o2 & e2 & E2 & Y & G2).
        exists S2, o2, e2. simpl. split; [exact E2|]. split; [now apply yields_drop|exact G2].
  Qed.

  Lemma good_weaken n m S S' e : n <= m -> plain_good n S S' e -> plain_good m S S' e.
  Proof.
    intros L (A1 & A2 & A3 & A4 & A5). split; [exact A1|]. split; [exact A2|]. split; [|auto].
    intros f H. apply A3. lia.
  Qed.

  Lemma good_set f v S S1 e t : psound S -> S f = None -> means f (BOk v) ->
    plain_good (rank f) S S1 e ->
    plain_good (Datatypes.S (rank f)) S (pset S1 f v) (BStart t f :: e ++ [BEnd t f (BOk v)]).
  Proof.
    intros SD SF M (A1 & A2 & A3 & A4 & A5).
    destruct (A3 f (le_n _)) as [E1 E2].
    assert (ST : forall g, starts g (BStart t f :: e ++ [BEnd t f (BOk v)]) =
                           (if Nat.eqb f g then 1 else 0) + starts g e).
    { intros g. change (BStart t f :: e ++ [BEnd t f (BOk v)]) with ([BStart t f] ++ e ++ [BEnd t f (BOk v)]).
      rewrite !starts_app. simpl. destruct (Nat.eqb f g); lia. }
    split; [|split; [|split; [|split]]].
    - split.
      + intros g w. unfold pset. destruct (Nat.eqb_spec g f) as [->|N]; [intros [= <-]; exact M|apply A1].
      + intros g H. unfold pset. destruct (Nat.eqb_spec g f); [discriminate|]. now apply A1.
    - intros g w H. unfold pset. destruct (Nat.eqb_spec g f) as [->|N]; [congruence|auto].
    - intros g L. destruct (A3 g ltac:(lia)) as [X1 X2]. rewrite ST, X2. unfold pset.
      destruct (Nat.eqb_spec g f) as [->|N]; [lia|]. destruct (Nat.eqb_spec f g); [congruence|]. auto.
    - intros g w H. rewrite ST, (A4 g w H). destruct (Nat.eqb_spec f g); [congruence|reflexivity].
    - intros g w MG. rewrite ST. destruct (A5 g w MG) as [X1 X2]. unfold pset.
      destruct (Nat.eqb_spec f g) as [->|N].
      + rewrite E2, Nat.eqb_refl. split; [lia|discriminate].
      + destruct (Nat.eqb_spec g f); [congruence|]. simpl. auto.
  Qed.

  Lemma good_fail f o S S1 e t : means f o -> (forall v, o <> BOk v) -> S f = None ->
    plain_good (rank f) S S1 e ->
    plain_good (Datatypes.S (rank f)) S S1 (BStart t f :: e ++ [BEnd t f o]).
  Proof.
    intros M NO SF (A1 & A2 & A3 & A4 & A5).
    assert (ST : forall g, starts g (BStart t f :: e ++ [BEnd t f o]) =
                           (if Nat.eqb f g then 1 else 0) + starts g e).
    { intros g. change (BStart t f :: e ++ [BEnd t f o]) with ([BStart t f] ++ e ++ [BEnd t f o]).
      rewrite !starts_app. simpl. destruct (Nat.eqb f g); lia. }
    split; [exact A1|]. split; [exact A2|]. split; [|split].
    - intros g L. destruct (A3 g ltac:(lia)) as [X1 X2]. rewrite ST, X2.
      destruct (Nat.eqb_spec f g) as [->|N]; [lia|auto].
    - intros g w H. rewrite ST, (A4 g w H). destruct (Nat.eqb_spec f g); [congruence|reflexivity].
    - intros g w MG. rewrite ST. destruct (Nat.eqb_spec f g) as [->|N]; [|simpl; exact (A5 g w MG)].
      exfalso. apply (NO w). exact (means_unique _ _ _ _ M _ MG).
  Qed.

  (** With enough fuel a read always ends, with what the field is worth. *)
  Lemma pget_good : forall n S f, rank f < n -> psound S ->
    exists S1 o e, pget bld n S f = Some (S1, o, e) /\ means f o /\ plain_good (Datatypes.S (rank f)) S S1 e.
  Proof.
    induction n as [|n IH]; intros S f L SD; [lia|].
    simpl. destruct (S f) as [v|] eqn:SF.
    - exists S, (BOk v), []. split; [reflexivity|]. split; [now apply SD|now apply good_nil].
    - assert (V0 : v0 f = None).
      { destruct (v0 f) eqn:E; [|reflexivity]. exfalso. destruct SD as [_ S2]. apply (S2 f); congruence. }
      destruct (pcode_good (rank f) (pget bld n)) with (p := bld f) (S := S)
        as (S1 & o & e & E & Y & G); auto.
      { intros S0 g LG SD0. destruct (IH S0 g ltac:(lia) SD0) as (S1 & o & e & E1 & M1 & G1).
        exists S1, o, e. split; [exact E1|]. split; [exact M1|]. eapply good_weaken; [|exact G1]. lia. }
      rewrite E. assert (M : means f o) by now apply means_built.
      destruct (proj1 (proj2 (proj2 G)) f (le_n _)) as [E1 _].
      destruct o as [v|er|].
      + rewrite E1, SF. do 3 eexists. split; [reflexivity|]. split; [exact M|].
        apply good_set; auto.
      + do 3 eexists. split; [reflexivity|]. split; [exact M|].
        apply good_fail; auto; discriminate.
      + do 3 eexists. split; [reflexivity|]. split; [exact M|].
        apply good_fail; auto; discriminate.
  Qed.

  Lemma prun_good n p S : only_plain_reads p -> reads_below rank n p -> psound S ->
    exists S1 o e, prun bld n S p = Some (S1, o, e) /\ yields p o /\ plain_good n S S1 e.
  Proof.
    intros OP RD SD. apply pcode_good; auto.
    intros S0 f L SD0. destruct (pget_good n S0 f L SD0) as (S1 & o & e & E & M & G).
    exists S1, o, e. split; [exact E|]. split; [exact M|]. eapply good_weaken; [|exact G]. lia.
  Qed.

  Lemma psound_start : psound v0.
  Proof. split; [intros f v H; now apply means_given|auto]. Qed.

  (** With a rank every field is worth something. *)
  Lemma means_exists f : exists o, means f o.
  Proof.
    destruct (pget_good (Datatypes.S (rank f)) v0 f (le_n _) psound_start) as (S1 & o & e & _ & M & _).
    now exists o.
  Qed.
End Plain.

(** More fuel changes nothing. *)
Section Fuel.
  Variable bld : fid -> prog.

  Lemma pcode_fuel g1 g2 : (forall S f r, g1 S f = Some r -> g2 S f = Some r) ->
    forall p S r, pcode g1 S p = Some r -> pcode g2 S p = Some r.
  Proof.
    intros HG. induction p as [o|f c k IH]; intros S r H; [exact H|].
    simpl in *. destruct c as [[]| | |]; try discriminate; try (now apply IH).
    - destruct (g1 S f) as [[[S1 o] e]|] eqn:E; [|discriminate]. rewrite (HG _ _ _ E).
      destruct (pcode g1 S1 _) as [[[S2 o2] e2]|] eqn:E2; [|discriminate]. now rewrite (IH _ _ _ E2).
    - destruct (g1 S f) as [[[S1 o] e]|] eqn:E; [|discriminate]. rewrite (HG _ _ _ E).
      destruct (pcode g1 S1 _) as [[[S2 o2] e2]|] eqn:E2; [|discriminate]. now rewrite (IH _ _ _ E2).
  Qed.

  Lemma pget_fuel n m : n <= m -> forall S f r, pget bld n S f = Some r -> pget bld m S f = Some r.
  Proof.
    revert m. induction n as [|n IH]; intros m L S f r H; [discriminate|].
    destruct m as [|m]; [lia|]. simpl in *.
    destruct (S f); [exact H|].
    destruct (pcode (pget bld n) S (bld f)) as [x|] eqn:E; [|discriminate].
    rewrite (pcode_fuel _ (pget bld m) (IH m ltac:(lia)) _ _ _ E). exact H.
  Qed.

  Lemma prun_fuel n m p S r : n <= m -> prun bld n S p = Some r -> prun bld m S p = Some r.
  Proof. intros L. apply pcode_fuel. now apply pget_fuel. Qed.

  (** Builders that need each other never end: no depth is enough. *)
  Section Cycle.
    Variable C : fid -> Prop.
    Hypothesis MR : forall f, C f -> must_read C (bld f).

    Definition none_set (S : pcells) : Prop := forall f, C f -> S f = None.

    Lemma pcode_cycle get :
      (forall S f, none_set S -> C f -> get S f = None) ->
      (forall S f S1 o e, none_set S -> get S f = Some (S1, o, e) -> none_set S1) ->
      forall p S, none_set S ->
        (must_read C p -> pcode get S p = None) /\
        (forall S1 o e, pcode get S p = Some (S1, o, e) -> none_set S1).
    Proof.
      intros G1 G2. induction p as [o|f c k IH]; intros S NS.
      - split; [intros []|]. simpl. intros S1 o1 e [= <- <- <-]. exact NS.
      - assert (RD : forall c', ((C f \/ forall r, must_read C (k r)) ->
             match get S f with
             | Some (S1, o, e1) =>
                 match pcode get S1 (k (accessor_result c' o)) with
                 | Some (S2, o2, e2) => Some (S2, o2, e1 ++ e2)
                 | None => None
                 end
             | None => None
             end = None) /\ (forall S3 o3 e3,
             match get S f with
             | Some (S1, o, e1) =>
                 match pcode get S1 (k (accessor_result c' o)) with
                 | Some (S2, o2, e2) => Some (S2, o2, e1 ++ e2)
                 | None => None
                 end
             | None => None
             end = Some (S3, o3, e3) -> none_set S3)).
        { intros c'. destruct (get S f) as [[[S1 o] e1]|] eqn:E.
          - pose proof (G2 _ _ _ _ _ NS E) as N1. destruct (IH (accessor_result c' o) S1 N1) as [A B].
            split.
            + intros [Cf|K]; [rewrite (G1 S f NS Cf) in E; discriminate|]. now rewrite (A (K _)).
            + intros S3 o3 e3. destruct (pcode get S1 _) as [[[S2 o2] e2]|]; [|discriminate].
              intros [= <- <- <-]. eapply B. reflexivity.
          - split; [reflexivity|discriminate]. }
        simpl. destruct c as [[]| | |]; try (split; [reflexivity|discriminate]).
        + destruct (RD (Proxy ORead)) as [A B]. split; [|exact B]. intros [[X _]|X]; apply A; auto.
        + destruct (RD (Proxy OTryRead)) as [A B]. split; [|exact B]. intros [[X _]|X]; apply A; auto.
        + destruct (IH RUnit S NS) as [A B]. split; [|exact B]. intros [[_ []]|X]. apply A, X.
    Qed.

    Lemma pget_cycle n : forall S, none_set S ->
      (forall f, C f -> pget bld n S f = None) /\
      (forall f S1 o e, pget bld n S f = Some (S1, o, e) -> none_set S1).
    Proof.
      induction n as [|n IH]; intros S NS; [split; [reflexivity|discriminate]|].
      pose proof (pcode_cycle (pget bld n) (fun S f N => proj1 (IH S N) f)
                    (fun S f S1 o e N => proj2 (IH S N) f S1 o e)) as PC.
      assert (A : forall f, C f -> pget bld (Datatypes.S n) S f = None).
      { intros f Cf. simpl. rewrite (NS f Cf). now rewrite (proj1 (PC (bld f) S NS) (MR f Cf)). }
      split; [exact A|]. intros f S1 o e H.
      simpl in H. destruct (S f) as [v|] eqn:SF; [inversion H; subst; exact NS|].
      destruct (pcode (pget bld n) S (bld f)) as [[[S2 o2] e2]|] eqn:E; [|discriminate].
      pose proof (proj2 (PC (bld f) S NS) _ _ _ E) as N2.
      destruct o2 as [v|er|]; [|inversion H; subst; exact N2|inversion H; subst; exact N2].
      destruct (S2 f) as [w|] eqn:E2; inversion H; subst; [exact N2|].
      intros g Cg. unfold pset. destruct (Nat.eqb_spec g f) as [->|N]; [|now apply N2].
      exfalso. rewrite (proj1 (PC (bld f) S NS) (MR f Cg)) in E. discriminate.
    Qed.
  End Cycle.
End Fuel.

Lemma plain_reads_reads p : only_plain_reads p -> only_reads p.
Proof.
  induction p as [o|f c k IH]; simpl; auto. intros [A B]. split; [|auto].
  destruct c as [[]| | |]; auto.
Qed.
