(** Events of a container on weak memory have numbers of their own. *)
From Coq Require Import List Bool Arith Lia.
From Verif Require Import ProxyTypes WeakMem.
From Verif Require SyncProxyModel AsyncProxyModel WeakSyncModel WeakAsyncModel.
Import ListNotations.

Definition below (n : nat) (l : list nat) : Prop := forall m, In m l -> m < n.
Lemma below_more n n' l : n <= n' -> below n l -> below n' l.
Proof. intros L B m I. specialize (B m I). lia. Qed.
Lemma below_app n l l' : below n l -> below n l' -> below n (l ++ l').
Proof. intros A B m I. apply in_app_or in I as [I|I]; auto. Qed.
Lemma below_cons n m l : m < n -> below n l -> below n (m :: l).
Proof. intros A B k [<-|I]; auto. Qed.
Lemma transfer_below n o o' k kw kr k' kw' kr' : below n k -> below n kw -> below n kr -> transfer o o' k kw kr = (k', kw', kr') ->
  below n k' /\ below n kw' /\ below n kr'.
Proof.
  intros A B C H. destruct o, o'; cbn in H; injection H as <- <- <-; repeat split; auto using below_app.
Qed.
Lemma load_in {A} k (l : WeakMem.place A) i m : load k l i = Some m -> In (fst m) (map fst l).
Proof. unfold load. destruct (some_known _ _); [discriminate|]. intros H. apply in_map, (nth_error_In _ _ H). Qed.
Lemma store_numbers {A} k (l : WeakMem.place A) j n x l' : WeakMem.store k l j (n, x) = Some l' -> below n (map fst l) -> NoDup (map fst l) ->
  below (S n) (map fst l') /\ NoDup (map fst l') /\ forall m, In m (map fst l') -> m = n \/ In m (map fst l).
Proof.
  unfold WeakMem.store. destruct (some_known _ _); [discriminate|]. intros H B D. injection H as <-.
  rewrite <- (firstn_skipn j l) in B, D. rewrite map_app in *. cbn [map fst].
  assert (Q : forall m, In m (map fst (firstn j l) ++ n :: map fst (skipn j l)) -> m = n \/ In m (map fst (firstn j l) ++ map fst (skipn j l))).
  { intros m I. apply in_app_or in I as [I|[I|I]]; [right; apply in_or_app; auto|auto|right; apply in_or_app; auto]. }
  split; [|split].
  - intros m I. apply Q in I as [->|I]; [lia|]. specialize (B m I). lia.
  - apply NoDup_Add with (a := n) (l := map fst (firstn j l) ++ map fst (skipn j l)); [apply Add_app|]. split; [exact D|].
    intros I. specialize (B n I). lia.
  - intros m I. apply Q in I as [I|I]; [auto|]. right. rewrite <- (firstn_skipn j l), map_app. exact I.
Qed.

(** What a field knows and has seen is numbered below [n]. *)
Record numbered (n : nat) (kn : aid -> list nat) (kw kr fl vl lg : list nat) : Prop := mk_numbered {
  nb_knows : forall a, below n (kn a);
  nb_kw : below n kw;
  nb_kr : below n kr;
  nb_flags : below n fl /\ NoDup fl;
  nb_values : below n vl /\ NoDup vl;
  nb_log : below n lg /\ NoDup lg
}.
Lemma numbered_more n n' kn kw kr fl vl lg : n <= n' -> numbered n kn kw kr fl vl lg -> numbered n' kn kw kr fl vl lg.
Proof. intros L [A B C [D D'] [E E'] [F F']]. split; eauto using below_more. Qed.
Lemma numbered_told n kn kw kr fl vl lg b k : numbered n kn kw kr fl vl lg -> below n k ->
  numbered n (WeakSyncModel.updk kn b (k ++ kn b)) kw kr fl vl lg.
Proof.
  intros [A B C D E F] K. split; auto. intros a. unfold WeakSyncModel.updk. destruct (Nat.eqb a b); [apply below_app; auto|auto].
Qed.

Section Container.
  Variables (V E : Type).
  Local Notation wst := (WeakSyncModel.wst V E).
  Definition sync_numbered (n : nat) (w : wst) : Prop := numbered n (WeakSyncModel.knows w) (WeakSyncModel.kw w) (WeakSyncModel.kr w)
    (map fst (WeakSyncModel.flags w)) (map fst (WeakSyncModel.values w)) (map fst (WeakSyncModel.log w)).
  Definition sync_events (w : wst) : list nat :=
    map fst (WeakSyncModel.flags w) ++ map fst (WeakSyncModel.values w) ++ map fst (WeakSyncModel.log w).
  Lemma sync_step w x w' t : sync_numbered (WeakSyncModel.next w) w -> WeakSyncModel.wstep w x = Some (w', t) ->
    sync_numbered (WeakSyncModel.next w') w' /\ WeakSyncModel.next w <= WeakSyncModel.next w' <= S (WeakSyncModel.next w) /\
    forall m, In m (sync_events w') -> m = WeakSyncModel.next w \/ In m (sync_events w).
  Proof.
    unfold sync_numbered, sync_events. intros Ok H. set (n := WeakSyncModel.next w) in *.
    assert (Calm : forall c, WeakSyncModel.mkw c (WeakSyncModel.flags w) (WeakSyncModel.values w) (WeakSyncModel.knows w) (WeakSyncModel.kw w)
        (WeakSyncModel.kr w) n (WeakSyncModel.log w) (WeakSyncModel.racy w) = w' ->
      sync_numbered (WeakSyncModel.next w') w' /\ n <= WeakSyncModel.next w' <= S n /\
      forall m, In m (sync_events w') -> m = n \/ In m (sync_events w)).
    { intros c <-. unfold sync_numbered, sync_events. cbn. split; [exact Ok|]. split; [lia|auto]. }
    destruct x as [[a o|a|a b] i j|a b]; cbn [WeakSyncModel.wstep] in H.
    - destruct (SyncProxyModel.step _ _) as [[c evs]|]; [|discriminate H]. injection H as H _. exact (Calm c H).
    - unfold WeakSyncModel.wcode in H. fold n in H.
      set (tt := WeakSyncModel.touch_of _) in H.
      destruct (if loads_flag tt then load (WeakSyncModel.knows w a) (WeakSyncModel.flags w) i else _) as [f|] eqn:Lf; [|discriminate H].
      destruct (if loads_value tt then load (WeakSyncModel.knows w a) (WeakSyncModel.values w) i else _) as [v|] eqn:Lv; [|discriminate H].
      destruct (SyncProxyModel.step_code _ a) as [[c evs]|]; [|discriminate H].
      destruct (if stores_flag tt then WeakMem.store _ _ j (n, SyncProxyModel.flag c) else _) as [fl|] eqn:Sf; [|discriminate H].
      destruct (if stores_value tt then WeakMem.store _ _ j (n, SyncProxyModel.value c) else _) as [vl|] eqn:Sv; [|discriminate H].
      destruct (transfer _ _ _ _ _) as [[k2 kw'] kr'] eqn:Tr. injection H as <- <-.
      destruct Ok as [A B C [D D'] [E1 E'] [F F']].
      assert (K1 : below (S n) (match tt with TNone => WeakSyncModel.knows w a | TLoadFlag => fst f :: WeakSyncModel.knows w a | _ => n :: WeakSyncModel.knows w a end)).
      { assert (A1 : below (S n) (WeakSyncModel.knows w a)) by (apply (below_more n); auto).
        destruct tt eqn:Et; auto using below_cons. apply below_cons; [|exact A1]. cbn in Lf. apply load_in in Lf. specialize (D _ Lf). lia. }
      destruct (transfer_below (S n) _ _ _ _ _ _ _ _ K1 (below_more n _ _ (le_S _ _ (le_n n)) B) (below_more n _ _ (le_S _ _ (le_n n)) C) Tr) as (K2 & B' & C').
      assert (Fl : (below (S n) (map fst fl) /\ NoDup (map fst fl)) /\ forall m, In m (map fst fl) -> m = n \/ In m (map fst (WeakSyncModel.flags w))).
      { destruct (stores_flag tt); [|injection Sf as <-; split; [split; [apply (below_more n); auto|exact D']|auto]].
        destruct (store_numbers _ _ _ _ _ _ Sf D D') as (X & Y & Z). auto. }
      assert (Vl : (below (S n) (map fst vl) /\ NoDup (map fst vl)) /\ forall m, In m (map fst vl) -> m = n \/ In m (map fst (WeakSyncModel.values w))).
      { destruct (stores_value tt); [|injection Sv as <-; split; [split; [apply (below_more n); auto|exact E']|auto]].
        destruct (store_numbers _ _ _ _ _ _ Sv E1 E') as (X & Y & Z). auto. }
      assert (Lg : forall l, l = (if loads_value tt || stores_value tt then (n, stores_value tt) :: WeakSyncModel.log w else WeakSyncModel.log w) ->
        (below (S n) (map fst l) /\ NoDup (map fst l)) /\ forall m, In m (map fst l) -> m = n \/ In m (map fst (WeakSyncModel.log w))).
      { intros l ->. destruct (loads_value tt || stores_value tt); cbn.
        - split; [split; [apply below_cons; [lia|apply (below_more n); auto]|constructor; [intros I; specialize (F n I); lia|exact F']]|intros m [<-|I]; auto].
        - split; [split; [apply (below_more n); auto|exact F']|auto]. }
      specialize (Lg _ eq_refl). cbn. split; [|split; [lia|]].
      + split; [|exact B'|exact C'|exact (proj1 Fl)|exact (proj1 Vl)|exact (proj1 Lg)].
        intros b. unfold WeakSyncModel.updk. destruct (Nat.eqb b a); [exact K2|apply (below_more n); auto].
      + intros m I. rewrite !in_app_iff in *. destruct I as [I|[I|I]].
        * destruct (proj2 Fl m I); auto.
        * destruct (proj2 Vl m I); auto.
        * destruct (proj2 Lg m I); auto.
    - destruct (SyncProxyModel.step _ _) as [[c evs]|]; [|discriminate H]. injection H as H _. exact (Calm c H).
    - injection H as <- <-. cbn. split; [|split; [lia|auto]]. apply (numbered_told _ _ _ _ _ _ _ b (WeakSyncModel.knows w a) Ok). apply Ok.
  Qed.
  Lemma sync_start (ov : option V) : sync_numbered 1 (WeakSyncModel.winit ov).
  Proof.
    assert (Z : below 1 [0]) by (intros m [<-|[]]; lia). assert (N : below 1 []) by (intros m []).
    assert (D0 : NoDup [0]) by (constructor; [intros []|constructor]). assert (D1 : NoDup (@nil nat)) by constructor.
    constructor; cbn; auto.
  Qed.
  Lemma sync_run : forall l (w : wst) w' t, sync_numbered (WeakSyncModel.next w) w -> WeakSyncModel.wrun w l = Some (w', t) ->
    sync_numbered (WeakSyncModel.next w') w'.
  Proof.
    induction l as [|x l IH]; intros w w' t Ok H; cbn [WeakSyncModel.wrun] in H; [injection H as <- _; exact Ok|].
    destruct (WeakSyncModel.wstep w x) as [[w1 t1]|] eqn:E1; [|discriminate H]. destruct (WeakSyncModel.wrun w1 l) as [[w2 t2]|] eqn:E2; [|discriminate H].
    injection H as <- _. exact (IH w1 w2 t2 (proj1 (sync_step w x w1 t1 Ok E1)) E2).
  Qed.
  Theorem sync_apart (ov : option V) l (w : wst) t : WeakSyncModel.wrun (WeakSyncModel.winit ov) l = Some (w, t) ->
    NoDup (map fst (WeakSyncModel.flags w)) /\ NoDup (map fst (WeakSyncModel.values w)) /\ NoDup (map fst (WeakSyncModel.log w)) /\
    (forall m, In m (map fst (WeakSyncModel.flags w) ++ map fst (WeakSyncModel.values w) ++ map fst (WeakSyncModel.log w)) -> m < WeakSyncModel.next w) /\
    forall a m, In m (WeakSyncModel.knows w a) -> m < WeakSyncModel.next w.
  Proof.
    intros H. apply sync_run in H; [|exact (sync_start ov)]. destruct H as [A _ _ [D D'] [E1 E'] [F F']]. repeat split; auto.
    intros m I. rewrite !in_app_iff in I. destruct I as [I|[I|I]]; auto.
  Qed.
End Container.

Section Container.
  Variables (V E : Type).
  Local Notation wst := (WeakAsyncModel.wst V E).
  Definition async_numbered (n : nat) (w : wst) : Prop := numbered n (WeakAsyncModel.knows w) (WeakAsyncModel.kw w) (WeakAsyncModel.kr w)
    (map fst (WeakAsyncModel.flags w)) (map fst (WeakAsyncModel.values w)) (map fst (WeakAsyncModel.log w)).
  Definition async_events (w : wst) : list nat :=
    map fst (WeakAsyncModel.flags w) ++ map fst (WeakAsyncModel.values w) ++ map fst (WeakAsyncModel.log w).
  Lemma async_step w x w' t : async_numbered (WeakAsyncModel.next w) w -> WeakAsyncModel.wstep w x = Some (w', t) ->
    async_numbered (WeakAsyncModel.next w') w' /\ WeakAsyncModel.next w <= WeakAsyncModel.next w' <= S (WeakAsyncModel.next w) /\
    forall m, In m (async_events w') -> m = WeakAsyncModel.next w \/ In m (async_events w).
  Proof.
    unfold async_numbered, async_events. intros Ok H. set (n := WeakAsyncModel.next w) in *.
    assert (Calm : forall c, WeakAsyncModel.mkw c (WeakAsyncModel.flags w) (WeakAsyncModel.values w) (WeakAsyncModel.knows w) (WeakAsyncModel.kw w)
        (WeakAsyncModel.kr w) n (WeakAsyncModel.log w) (WeakAsyncModel.racy w) = w' ->
      async_numbered (WeakAsyncModel.next w') w' /\ n <= WeakAsyncModel.next w' <= S n /\
      forall m, In m (async_events w') -> m = n \/ In m (async_events w)).
    { intros c <-. unfold async_numbered, async_events. cbn. split; [exact Ok|]. split; [lia|auto]. }
    destruct x as [[a o|a|a b|a] i j|a b]; cbn [WeakAsyncModel.wstep] in H.
    - destruct (AsyncProxyModel.step _ _) as [[c evs]|]; [|discriminate H]. injection H as H _. exact (Calm c H).
    - unfold WeakAsyncModel.wcode in H. fold n in H.
      set (tt := WeakAsyncModel.touch_of _) in H.
      destruct (if loads_flag tt then load (WeakAsyncModel.knows w a) (WeakAsyncModel.flags w) i else _) as [f|] eqn:Lf; [|discriminate H].
      destruct (if loads_value tt then load (WeakAsyncModel.knows w a) (WeakAsyncModel.values w) i else _) as [v|] eqn:Lv; [|discriminate H].
      destruct (AsyncProxyModel.step_code _ a) as [[c evs]|]; [|discriminate H].
      destruct (if stores_flag tt then WeakMem.store _ _ j (n, AsyncProxyModel.flag c) else _) as [fl|] eqn:Sf; [|discriminate H].
      destruct (if stores_value tt then WeakMem.store _ _ j (n, AsyncProxyModel.value c) else _) as [vl|] eqn:Sv; [|discriminate H].
      destruct (transfer _ _ _ _ _) as [[k2 kw'] kr'] eqn:Tr. injection H as <- <-.
      destruct Ok as [A B C [D D'] [E1 E'] [F F']].
      assert (K1 : below (S n) (match tt with TNone => WeakAsyncModel.knows w a | TLoadFlag => fst f :: WeakAsyncModel.knows w a | _ => n :: WeakAsyncModel.knows w a end)).
      { assert (A1 : below (S n) (WeakAsyncModel.knows w a)) by (apply (below_more n); auto).
        destruct tt eqn:Et; auto using below_cons. apply below_cons; [|exact A1]. cbn in Lf. apply load_in in Lf. specialize (D _ Lf). lia. }
      destruct (transfer_below (S n) _ _ _ _ _ _ _ _ K1 (below_more n _ _ (le_S _ _ (le_n n)) B) (below_more n _ _ (le_S _ _ (le_n n)) C) Tr) as (K2 & B' & C').
      assert (Fl : (below (S n) (map fst fl) /\ NoDup (map fst fl)) /\ forall m, In m (map fst fl) -> m = n \/ In m (map fst (WeakAsyncModel.flags w))).
      { destruct (stores_flag tt); [|injection Sf as <-; split; [split; [apply (below_more n); auto|exact D']|auto]].
        destruct (store_numbers _ _ _ _ _ _ Sf D D') as (X & Y & Z). auto. }
      assert (Vl : (below (S n) (map fst vl) /\ NoDup (map fst vl)) /\ forall m, In m (map fst vl) -> m = n \/ In m (map fst (WeakAsyncModel.values w))).
      { destruct (stores_value tt); [|injection Sv as <-; split; [split; [apply (below_more n); auto|exact E']|auto]].
        destruct (store_numbers _ _ _ _ _ _ Sv E1 E') as (X & Y & Z). auto. }
      assert (Lg : forall l, l = (if loads_value tt || stores_value tt then (n, stores_value tt) :: WeakAsyncModel.log w else WeakAsyncModel.log w) ->
        (below (S n) (map fst l) /\ NoDup (map fst l)) /\ forall m, In m (map fst l) -> m = n \/ In m (map fst (WeakAsyncModel.log w))).
      { intros l ->. destruct (loads_value tt || stores_value tt); cbn.
        - split; [split; [apply below_cons; [lia|apply (below_more n); auto]|constructor; [intros I; specialize (F n I); lia|exact F']]|intros m [<-|I]; auto].
        - split; [split; [apply (below_more n); auto|exact F']|auto]. }
      specialize (Lg _ eq_refl). cbn. split; [|split; [lia|]].
      + split; [|exact B'|exact C'|exact (proj1 Fl)|exact (proj1 Vl)|exact (proj1 Lg)].
        intros b. unfold WeakAsyncModel.updk. destruct (Nat.eqb b a); [exact K2|apply (below_more n); auto].
      + intros m I. rewrite !in_app_iff in *. destruct I as [I|[I|I]].
        * destruct (proj2 Fl m I); auto.
        * destruct (proj2 Vl m I); auto.
        * destruct (proj2 Lg m I); auto.
    - destruct (AsyncProxyModel.step _ _) as [[c evs]|]; [|discriminate H]. injection H as H _. exact (Calm c H).
    - destruct (AsyncProxyModel.step _ _) as [[c evs]|]; [|discriminate H]. injection H as H _. exact (Calm c H).
    - injection H as <- <-. cbn. split; [|split; [lia|auto]]. apply (numbered_told _ _ _ _ _ _ _ b (WeakAsyncModel.knows w a) Ok). apply Ok.
  Qed.
  Lemma async_start (ov : option V) : async_numbered 1 (WeakAsyncModel.winit ov).
  Proof.
    assert (Z : below 1 [0]) by (intros m [<-|[]]; lia). assert (N : below 1 []) by (intros m []).
    assert (D0 : NoDup [0]) by (constructor; [intros []|constructor]). assert (D1 : NoDup (@nil nat)) by constructor.
    constructor; cbn; auto.
  Qed.
  Lemma async_run : forall l (w : wst) w' t, async_numbered (WeakAsyncModel.next w) w -> WeakAsyncModel.wrun w l = Some (w', t) ->
    async_numbered (WeakAsyncModel.next w') w'.
  Proof.
    induction l as [|x l IH]; intros w w' t Ok H; cbn [WeakAsyncModel.wrun] in H; [injection H as <- _; exact Ok|].
    destruct (WeakAsyncModel.wstep w x) as [[w1 t1]|] eqn:E1; [|discriminate H]. destruct (WeakAsyncModel.wrun w1 l) as [[w2 t2]|] eqn:E2; [|discriminate H].
    injection H as <- _. exact (IH w1 w2 t2 (proj1 (async_step w x w1 t1 Ok E1)) E2).
  Qed.
  Theorem async_apart (ov : option V) l (w : wst) t : WeakAsyncModel.wrun (WeakAsyncModel.winit ov) l = Some (w, t) ->
    NoDup (map fst (WeakAsyncModel.flags w)) /\ NoDup (map fst (WeakAsyncModel.values w)) /\ NoDup (map fst (WeakAsyncModel.log w)) /\
    (forall m, In m (map fst (WeakAsyncModel.flags w) ++ map fst (WeakAsyncModel.values w) ++ map fst (WeakAsyncModel.log w)) -> m < WeakAsyncModel.next w) /\
    forall a m, In m (WeakAsyncModel.knows w a) -> m < WeakAsyncModel.next w.
  Proof.
    intros H. apply async_run in H; [|exact (async_start ov)]. destruct H as [A _ _ [D D'] [E1 E'] [F F']]. repeat split; auto.
    intros m I. rewrite !in_app_iff in I. destruct I as [I|[I|I]]; auto.
  Qed.
End Container.
