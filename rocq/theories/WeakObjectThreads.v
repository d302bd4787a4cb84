(** Methods running on a container that answers its predicate differently. *)
From Coq Require Import List Bool String Arith.
From Verif Require Import ProxyTypes ArgsModel RustAst CommonGen StructGen FieldSpec FieldRun GuardCell ThreadSpec ThreadModel ThreadScripts WeakSpec.
Import ListNotations.

Inductive rlike : res nat nat -> res nat nat -> Prop :=
| rl_same r : rlike r r
| rl_bool b b' : rlike (RBool b) (RBool b').
Inductive olike : obs -> obs -> Prop :=
| ol_same o : olike o o
| ol_bool b b' : olike (ORet (AnBool b)) (ORet (AnBool b')).
Inductive clike : comp -> comp -> Prop :=
| cl_fin o o' g : olike o o' -> clike (Fin o g) (Fin o' g)
| cl_wrong : clike Wrong Wrong
| cl_op o k k' : (forall r r', rlike r r' -> clike (k r) (k' r')) -> clike (Op o k) (Op o k').
Inductive thlike : thr -> thr -> Prop :=
| th_idle : thlike Idle Idle
| th_fresh c c' : clike c c' -> thlike (Fresh c) (Fresh c')
| th_doing c c' : clike c c' -> thlike (Doing c) (Doing c')
| th_waiting k k' : (forall r r', rlike r r' -> clike (k r) (k' r')) -> thlike (Waiting k) (Waiting k')
| th_keeping g : thlike (Keeping g) (Keeping g).
Inductive hlike : hist -> hist -> Prop :=
| hl_same h : hlike h h
| hl_bool a b b' : hlike (HRet a (ORet (AnBool b))) (HRet a (ORet (AnBool b'))).
Lemma hlike_ret a o o' : olike o o' -> hlike (HRet a o) (HRet a o').
Proof. intros []; constructor. Qed.

Ltac like := repeat (match goal with
  | |- clike (Fin _ _) (Fin _ _) => apply cl_fin
  | |- clike Wrong Wrong => apply cl_wrong
  | |- clike (Op _ _) (Op _ _) => apply cl_op; intros ? ? []; cbn
  | |- clike (match ?x with _ => _ end) _ => destruct x; cbn
  | |- clike (if ?x then _ else _) _ => destruct x; cbn
  | |- olike _ _ => constructor
  end).
Lemma std_like fl keeps k n : clike (std fl keeps k n) (std fl keeps k n).
Proof.
  destruct k; cbn; like; try destruct keeps; rewrite ?finish_opt.
  all: unfold on_guard, on_copy, on_copied, on_write, on_store, on_stored, on_clear, on_isset in *; cbn; like; rewrite ?finish_opt; cbn; like.
Qed.
Lemma use_like g u : clike (use_script g u) (use_script g u).
Proof. destruct u as [|[n|]|]; cbn; like. Qed.

Lemma answer_like a t t' : Forall2 (@alike nat nat) t t' ->
  match answer_for a t, answer_for a t' with Some r, Some r' => rlike r r' | None, None => True | _, _ => False end.
Proof.
  induction 1 as [|e e' t t' A F IH]; [exact I|]. destruct A as [e|b x x'].
  - destruct e as [b o|b r|b|b x]; cbn; try exact IH. destruct (Nat.eqb b a); [constructor|exact IH].
  - cbn. destruct (Nat.eqb b a); [constructor|exact IH].
Qed.
Lemma resumed_like a k k' t t' : (forall r r', rlike r r' -> clike (k r) (k' r')) -> Forall2 (@alike nat nat) t t' ->
  thlike (fst (resumed a k t)) (fst (resumed a k' t')) /\ Forall2 hlike (snd (resumed a k t)) (snd (resumed a k' t')).
Proof.
  intros K F. pose proof (answer_like a t t' F) as A. unfold resumed.
  destruct (answer_for a t) as [r|], (answer_for a t') as [r'|]; try destruct A; cbn.
  - destruct r; cbn; split; try (constructor; fail); try (constructor; apply K; constructor); repeat constructor.
  - split; [constructor; apply K; constructor|constructor].
  - split; [constructor; exact K|constructor].
Qed.

Section Step.
Variables (W St : Type).
Variable wb : nat -> nat -> W -> bact -> option (W * list (event nat nat)).
Variable sb : St -> bact -> option (St * list (event nat nat)).
Variable R : W -> St -> Prop.
Variable ms : list mdecl.
Variables asy alive : bool.
Hypothesis Par : forall m n, In m ms -> clike (script asy alive m n) (script asy alive m n).
Definition like (w : mstate W) (s : mstate St) : Prop :=
  R (m_box w) (m_box s) /\ forall a, thlike (m_thr w a) (m_thr s a).
Lemma set_like f g a x y : (forall b, thlike (f b) (g b)) -> thlike x y -> forall b, thlike (set_thr f a x b) (set_thr g a y b).
Proof. intros H X b. unfold set_thr. destruct (Nat.eqb b a); auto. Qed.
Lemma in_method k m : find_method k ms = Some m -> In m ms.
Proof. unfold find_method. intros H. apply find_some in H. apply H. Qed.

Hypothesis Sim : forall i j w s y w' t, R w s -> wb i j w y = Some (w', t) ->
  exists s' t', sb s y = Some (s', t') /\ Forall2 (@alike nat nat) t t' /\ R w' s'.
Lemma mstep_like i j w s x w' h t : like w s -> mstep W (wb i j) ms asy alive w x = Some (w', h, t) ->
  exists s' h' t', mstep St sb ms asy alive s x = Some (s', h', t') /\ Forall2 hlike h h' /\ Forall2 (@alike nat nat) t t' /\ like w' s'.
Proof.
  intros [B T] H.
  assert (Box : forall y a k k' (b : W) ev, (forall r r', rlike r r' -> clike (k r) (k' r')) ->
    wb i j (m_box w) y = Some (b, ev) ->
    exists s' t', sb (m_box s) y = Some (s', t') /\ Forall2 (@alike nat nat) ev t' /\
      Forall2 hlike (snd (resumed a k ev)) (snd (resumed a k' t')) /\
      like (mk_mstate b (set_thr (m_thr w) a (fst (resumed a k ev)))) (mk_mstate s' (set_thr (m_thr s) a (fst (resumed a k' t'))))).
  { intros y a k k' b ev K E. destruct (Sim _ _ _ _ _ _ _ B E) as (s' & t' & S1 & A & R').
    destruct (resumed_like a k k' ev t' K A) as [X Y]. exists s', t'. split; [exact S1|]. split; [exact A|]. split; [exact Y|].
    split; [exact R'|]. cbn. apply set_like; assumption. }
  destruct x as [a k n|a u|a|a|a b|a]; unfold mstep in *; pose proof (T a) as Ta.
  - destruct (m_thr w a) eqn:E; try discriminate H. inversion Ta as [E1 E2| | | |]; subst.
    destruct (find_method k ms) as [m|] eqn:F; [|discriminate H]. injection H as <- <- <-.
    eexists. eexists. eexists. split; [reflexivity|]. split; [repeat constructor|]. split; [constructor|]. split; [exact B|].
    cbn. apply set_like; [exact T|]. pose proof (Par m n (in_method _ _ F)). destruct (m_async m); constructor; assumption.
  - destruct (m_thr w a) eqn:E; try discriminate H. inversion Ta as [| | | |g1 E1 E2]; subst.
    destruct (use_ok g u); [|discriminate H]. injection H as <- <- <-.
    eexists. eexists. eexists. split; [reflexivity|]. split; [repeat constructor|]. split; [constructor|]. split; [exact B|].
    cbn. apply set_like; [exact T|]. constructor. apply use_like.
  - destruct (m_thr w a) as [|c|c|k|g] eqn:E; try discriminate H.
    + inversion Ta as [|c0 c' C E1 E2| | |]; subst. injection H as <- <- <-.
      eexists. eexists. eexists. split; [reflexivity|]. split; [constructor|]. split; [constructor|]. split; [exact B|].
      cbn. apply set_like; [exact T|]. constructor. exact C.
    + inversion Ta as [| |c0 c' C E1 E2| |]; subst. destruct C as [o o' g O| |o k k' K]; try discriminate H.
      * injection H as <- <- <-. eexists. eexists. eexists. split; [reflexivity|]. split; [constructor; [apply hlike_ret, O|constructor]|].
        split; [constructor|]. split; [exact B|]. cbn. apply set_like; [exact T|]. destruct g; constructor.
      * destruct (wb i j (m_box w) (BCall a o)) as [[b ev]|] eqn:E3; [|discriminate H]. injection H as <- <- <-.
        destruct (Sim _ _ _ _ _ _ _ B E3) as (s' & t' & S1 & A & R'). rewrite S1.
        eexists. eexists. eexists. split; [reflexivity|]. split; [constructor|]. split; [exact A|]. split; [exact R'|].
        cbn. apply set_like; [exact T|]. constructor. exact K.
  - destruct (m_thr w a) as [|c|c|k|g] eqn:E; try discriminate H. inversion Ta as [| | |k0 k' K E1 E2|]; subst.
    destruct (wb i j (m_box w) (BStep a)) as [[b ev]|] eqn:E3; [|discriminate H]. injection H as <- <- <-.
    destruct (Box _ a k k' _ _ K E3) as (s' & t' & S1 & A & Hh & L). rewrite S1. cbn zeta.
    eexists. eexists. eexists. split; [reflexivity|]. auto.
  - destruct (m_thr w a) as [|c|c|k|g] eqn:E; try discriminate H. inversion Ta as [| | |k0 k' K E1 E2|]; subst.
    destruct (wb i j (m_box w) (BBuilt a b)) as [[b' ev]|] eqn:E3; [|discriminate H]. injection H as <- <- <-.
    destruct (Box _ a k k' _ _ K E3) as (s' & t' & S1 & A & Hh & L). rewrite S1. cbn zeta.
    eexists. eexists. eexists. split; [reflexivity|]. auto.
  - destruct (m_thr w a) as [|c|c|k|g] eqn:E; try discriminate H.
    + inversion Ta as [|c0 c' C E1 E2| | |]; subst. injection H as <- <- <-.
      eexists. eexists. eexists. split; [reflexivity|]. split; [repeat constructor|]. split; [constructor|]. split; [exact B|].
      cbn. apply set_like; [exact T|]. constructor.
    + inversion Ta as [| | |k0 k' K E1 E2|]; subst.
      destruct (wb i j (m_box w) (BCancel a)) as [[b ev]|] eqn:E3; [|discriminate H]. injection H as <- <- <-.
      destruct (Box _ a k k' _ _ K E3) as (s' & t' & S1 & A & Hh & L). rewrite S1. cbn zeta.
      eexists. eexists. eexists. split; [reflexivity|]. auto.
Qed.

Hypothesis Can : forall w s y, R w s -> sb s y <> None -> exists i j, wb i j w y <> None.
Lemma mstep_can w s x : like w s -> mstep St sb ms asy alive s x <> None -> exists i j, mstep W (wb i j) ms asy alive w x <> None.
Proof.
  intros [B T] H. destruct x as [a k n|a u|a|a|a b|a]; unfold mstep in *; pose proof (T a) as Ta.
  - exists 0, 0. inversion Ta as [E1 E2|? ? ? E1 E2|? ? ? E1 E2|? ? ? E1 E2|? E1 E2]; rewrite <- E2 in H; try congruence.
    destruct (find_method k ms); congruence.
  - exists 0, 0. inversion Ta as [E1 E2|? ? ? E1 E2|? ? ? E1 E2|? ? ? E1 E2|? E1 E2]; rewrite <- E2 in H; try congruence.
    destruct (use_ok g u); congruence.
  - inversion Ta as [E1 E2|? ? C E1 E2|? ? C E1 E2|? ? K E1 E2|? E1 E2]; rewrite <- E2 in H; try congruence.
    + exists 0, 0. discriminate.
    + destruct C as [o o' g O| |o k k' K]; [exists 0, 0; discriminate|congruence|].
      destruct (Can _ _ (BCall a o) B) as (i & j & C); [destruct (sb (m_box s) (BCall a o)) as [[? ?]|]; congruence|].
      exists i, j. destruct (wb i j (m_box w) (BCall a o)) as [[? ?]|]; congruence.
  - inversion Ta as [E1 E2|? ? C E1 E2|? ? C E1 E2|? ? K E1 E2|? E1 E2]; rewrite <- E2 in H; try congruence.
    destruct (Can _ _ (BStep a) B) as (i & j & C); [destruct (sb (m_box s) (BStep a)) as [[? ?]|]; congruence|].
    exists i, j. destruct (wb i j (m_box w) (BStep a)) as [[? ?]|]; congruence.
  - inversion Ta as [E1 E2|? ? C E1 E2|? ? C E1 E2|? ? K E1 E2|? E1 E2]; rewrite <- E2 in H; try congruence.
    destruct (Can _ _ (BBuilt a b) B) as (i & j & C); [destruct (sb (m_box s) (BBuilt a b)) as [[? ?]|]; congruence|].
    exists i, j. destruct (wb i j (m_box w) (BBuilt a b)) as [[? ?]|]; congruence.
  - inversion Ta as [E1 E2|? ? C E1 E2|? ? C E1 E2|? ? K E1 E2|? E1 E2]; rewrite <- E2 in H; try congruence.
    + exists 0, 0. discriminate.
    + destruct (Can _ _ (BCancel a) B) as (i & j & C); [destruct (sb (m_box s) (BCancel a)) as [[? ?]|]; congruence|].
      exists i, j. destruct (wb i j (m_box w) (BCancel a)) as [[? ?]|]; congruence.
Qed.
End Step.
