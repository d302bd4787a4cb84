(** Facts about the vocabulary of RegisterSpec.v (proof support, no model here). *)
From Coq Require Import List Bool Arith Lia.
From Verif Require Import ProxyTypes MultiSpec RegisterSpec.
Import ListNotations.

Lemma last_set_app v a b : last_set v (a ++ b) = last_set (last_set v a) b.
Proof.
  revert v. induction a as [|[t c|t [[]| | |] r] a IH]; intros ?; cbn; auto.
Qed.

Lemma busy_more t c a b : Forall (fun x => who x <> t) b -> busy_with t c a -> busy_with t c (a ++ b).
Proof.
  intros H (l1 & l2 & -> & K). exists l1, (l2 ++ b). rewrite <- app_assoc. split; auto.
  apply Forall_app; auto.
Qed.

Lemma busy_now t c before : busy_with t c (before ++ [LCall t c]).
Proof. exists before, []. auto. Qed.

Lemma meanwhile_more v0 t c a b ov : Forall (fun x => who x <> t) b ->
  meanwhile v0 t c a ov -> meanwhile v0 t c (a ++ b) ov.
Proof.
  intros H (b1 & b2 & -> & K & L & E). exists b1, (b2 ++ b). rewrite app_assoc. repeat split; auto.
  apply Forall_app; auto.
Qed.

Lemma calls_by_app t a b : calls_by t (a ++ b) = calls_by t a + calls_by t b.
Proof. induction a as [|[u c|u c r] a IH]; cbn; auto. rewrite IH. lia. Qed.

Lemma calls_by_none t l : Forall (fun x => who x <> t) l -> calls_by t l = 0.
Proof.
  induction 1 as [|[u c|u c r] l N _ IH]; cbn; auto. cbn in N. destruct (Nat.eqb_spec u t); [congruence|auto].
Qed.
