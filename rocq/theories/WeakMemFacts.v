(** Lemmas about the memory of WeakMem.v. *)
From Coq Require Import List Bool Arith Lia.
From Verif Require Import ProxyTypes WeakMem WeakSpec.
Import ListNotations.

Definition ids {A} (l : place A) : list nat := map fst l.
Lemma memb_in n k : existsb (Nat.eqb n) k = true <-> In n k.
Proof.
  rewrite existsb_exists. split.
  - intros (x & I & E). apply Nat.eqb_eq in E. subst. exact I.
  - intros I. exists n. split; [exact I|apply Nat.eqb_refl].
Qed.
Lemma some_known_false {A} k (l : place A) : some_known k l = false -> forall m, In m l -> ~ In (fst m) k.
Proof.
  intros H m I J. assert (some_known k l = true) as X; [|congruence].
  apply existsb_exists. exists m. split; [exact I|]. apply memb_in. exact J.
Qed.
Lemma known_last {A} k (l : place A) x : In (fst x) k -> some_known k (l ++ [x]) = true.
Proof.
  intros I. apply existsb_exists. exists x. split; [apply in_or_app; right; left; reflexivity|].
  apply memb_in. exact I.
Qed.
Lemma load_known {A} k (l : place A) x i m : In (fst x) k -> load k (l ++ [x]) i = Some m -> m = x /\ i = length l.
Proof.
  unfold load. intros I H. destruct (some_known k (skipn (S i) (l ++ [x]))) eqn:E; [discriminate|].
  assert (L : i < length (l ++ [x])) by (apply nth_error_Some; congruence). rewrite app_length in L. simpl in L.
  destruct (Nat.eq_dec i (length l)) as [->|N].
  - rewrite nth_error_app2, Nat.sub_diag in H by lia. simpl in H. split; [congruence|reflexivity].
  - rewrite skipn_app in E. replace (S i - length l) with 0 in E by lia. simpl in E.
    rewrite known_last in E by exact I. discriminate.
Qed.
Lemma load_at {A} k (l : place A) i : load k (l) i = None \/ load k l i = nth_error l i.
Proof. unfold load. destruct (some_known _ _); auto. Qed.
Lemma load_not_older {A} k (l : place A) i m n : load k l i = Some m -> nth_error (ids l) n <> None ->
  (forall d, nth_error (ids l) n = Some d -> In d k) -> n <= i.
Proof.
  unfold load. intros H Q K. destruct (some_known k (skipn (S i) l)) eqn:E; [discriminate|].
  destruct (le_lt_dec n i) as [?|L]; [assumption|exfalso].
  destruct (nth_error (ids l) n) as [d|] eqn:D; [|congruence]. specialize (K d eq_refl).
  unfold ids in D. rewrite nth_error_map in D. destruct (nth_error l n) as [y|] eqn:Y; [|discriminate].
  injection D as <-. apply (some_known_false _ _ E y); [|exact K].
  rewrite <- (firstn_skipn (S i) l) in Y. rewrite nth_error_app2 in Y.
  - eapply nth_error_In, Y.
  - rewrite firstn_length. lia.
Qed.
Lemma store_known {A} k (l : place A) x j m l' : In (fst x) k -> store k (l ++ [x]) j m = Some l' ->
  l' = (l ++ [x]) ++ [m].
Proof.
  unfold store. intros I H. destruct (some_known k (skipn j (l ++ [x]))) eqn:E; [discriminate|]. injection H as <-.
  assert (L : length (l ++ [x]) <= j).
  { destruct (le_lt_dec (length (l ++ [x])) j) as [?|L]; [assumption|exfalso]. rewrite app_length in L. simpl in L.
    rewrite skipn_app in E. replace (j - length l) with 0 in E by lia. simpl in E.
    rewrite known_last in E by exact I. discriminate. }
  rewrite firstn_all2, skipn_all2 by exact L. reflexivity.
Qed.

Lemma transfer_know o o' k x y : let '(k2, _, _) := transfer o o' k x y in incl k k2.
Proof. destruct o, o'; simpl; intros n I; try exact I; apply in_or_app; auto. Qed.
Lemma transfer_lock o o' k x y : let '(_, x', y') := transfer o o' k x y in incl x x' /\ incl y y'.
Proof. destruct o, o'; simpl; split; intros n I; try exact I; apply in_or_app; auto. Qed.
Lemma heard_app t1 : forall l t2, heard l (t1 ++ t2) = heard (heard l t1) t2.
Proof. induction t1 as [|[c d] t1 IH]; intros l t2; simpl; [reflexivity|]. destruct (existsb (Nat.eqb c) l); apply IH. Qed.
Lemma load_last {A} k (l : place A) x : load k (l ++ [x]) (length l) = Some x.
Proof.
  unfold load. rewrite skipn_all2 by (rewrite app_length; simpl; lia).
  rewrite nth_error_app2, Nat.sub_diag by lia. reflexivity.
Qed.
Lemma store_last {A} k (l : place A) m : store k l (length l) m = Some (l ++ [m]).
Proof. unfold store. rewrite skipn_all, firstn_all. reflexivity. Qed.
