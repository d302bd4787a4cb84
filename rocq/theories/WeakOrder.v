(** Facts about looking at a sequence without going back. *)
From Coq Require Import List Bool Arith.
From Verif Require Import ProxyTypes WeakSpec.
Import ListNotations.

Lemma onward_app xs h1 x : onward xs (h1 ++ [x]) -> forall ys h2, onward ys (x :: h2) -> onward (xs ++ ys) (h1 ++ x :: h2).
Proof.
  remember (h1 ++ [x]) as h eqn:Q. intros H. revert h1 x Q. induction H as [h|y xs h H IH|y xs h H IH]; intros h1 x Q ys h2 Y.
  - simpl. clear Q. induction h1; simpl; [exact Y|constructor; assumption].
  - destruct h1 as [|z h1]; simpl in Q.
    + injection Q as <- ->. simpl. constructor. apply (IH [] y eq_refl ys h2 Y).
    + injection Q as <- ->. simpl. constructor. apply (IH (y :: h1) x eq_refl ys h2 Y).
  - destruct h1 as [|z h1]; simpl in Q.
    + injection Q as <- ->. destruct xs as [|z xs]; [exact Y|]. exfalso. inversion H.
    + injection Q as <- ->. simpl. constructor. apply (IH h1 x eq_refl ys h2 Y).
Qed.
Lemma onward_longer xs h : onward xs h -> forall h', onward xs (h ++ h').
Proof. induction 1 as [h|x xs h H IH|x xs h H IH]; intros h'; simpl; constructor; apply IH. Qed.
Lemma onward_one x h : In x h -> onward [x] h.
Proof.
  induction h as [|y h IH]; [intros []|]. intros [<-|I]; [|constructor; auto]. constructor. constructor.
Qed.
Lemma onward_in x xs h : onward xs h -> In x xs -> onward [x] h.
Proof.
  induction 1 as [h|y xs h H IH|y xs h H IH]; [intros []| |].
  - intros [<-|I]; [|auto]. apply onward_one. left. reflexivity.
  - intros I. constructor. auto.
Qed.
(** The last look can be repeated at the end. *)
Lemma onward_split xs h x : onward xs (h ++ [x]) -> exists ys k, xs = ys ++ repeat x k /\ onward ys h.
Proof.
  remember (h ++ [x]) as g eqn:Q. intros H. revert h x Q. induction H as [g|y xs g H IH|y xs g H IH]; intros h x Q.
  - exists [], 0. split; [reflexivity|constructor].
  - destruct h as [|z h]; simpl in Q; injection Q as <- ->.
    + destruct (IH [] y eq_refl) as (ys & k & -> & O). inversion O; subst. exists [], (S k). split; [reflexivity|constructor].
    + destruct (IH (y :: h) x eq_refl) as (ys & k & -> & O). exists (y :: ys), k. split; [reflexivity|constructor; exact O].
  - destruct h as [|z h]; simpl in Q; injection Q as <- ->.
    + inversion H; subst. exists [], 0. split; [reflexivity|constructor].
    + destruct (IH h x eq_refl) as (ys & k & -> & O). exists ys, k. split; [reflexivity|constructor; exact O].
Qed.
Lemma onward_repeat ys h x k : onward ys h -> onward (ys ++ repeat x k) (h ++ [x]).
Proof.
  induction 1 as [h|y xs h H IH|y xs h H IH]; simpl; [|constructor; exact IH|constructor; exact IH].
  induction h as [|y h IH]; simpl; [|constructor; exact IH].
  induction k; simpl; constructor; assumption.
Qed.
