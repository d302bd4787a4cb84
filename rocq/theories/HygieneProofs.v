(** Proofs about HygieneModel.v: what its pieces are, told by HygieneWhen.v. *)
From Coq Require Import List Bool String.
From Verif Require Import ArgsModel CtxModel RustAst CommonGen PlainGen SyncGen StructGen CopyModel NameModel ItemModel
  BuilderProofs HygieneSpec HygieneModel HygieneWhen.
Import ListNotations.
Open Scope string_scope.
Open Scope list_scope.

(** ** Names *)
Lemma space_eqb_eq a b : space_eqb a b = true <-> a = b.
Proof. destruct a, b; simpl; split; congruence. Qed.
Lemma same_name_eq a b : same_name a b = true <-> a = b.
Proof.
  unfold same_name. destruct a as [s x], b as [t y]. simpl. rewrite andb_true_iff, space_eqb_eq, String.eqb_eq.
  split; [intros [-> ->]; reflexivity | intro E; injection E as -> ->; auto].
Qed.
Lemma among_In n l : among n l = true <-> In n l.
Proof.
  unfold among. rewrite existsb_exists. split.
  - intros [x [I E]]. apply same_name_eq in E. subst. exact I.
  - intro I. exists n. split; [exact I|]. apply same_name_eq. reflexivity.
Qed.
Lemma among_not n l : among n l = false <-> ~ In n l.
Proof. rewrite <- among_In. destruct (among n l); split; congruence. Qed.

(** What the code binds. *)
Definition binders : list name := reserved_inside.

Section Pieces.
Variable c : sctx.
Variable w : surroundings.

(** What a piece of the generated code can be. *)
Definition tame (p : piece) : Prop :=
  match p with
  | Says b n m => incl b binders /\ ((m = Bound /\ In n b) \/ (asks c n m /\ ~ In n b))
  | Repeats b n => incl b binders /\ (In n b -> covers c w n \/ (fst n = Lifetimes /\ opens c n /\
      ((exists f, In n (w_type w f)) \/ In n (w_error w))))
  | Binds n => opens c n \/ In n locals
  end.
Definition all_tame (l : list piece) : Prop := forall p, In p l -> tame p.

Lemma tame_app l k : all_tame l -> all_tame k -> all_tame (l ++ k).
Proof. intros A B p I. apply in_app_or in I. destruct I; auto. Qed.
Lemma tame_nil : all_tame [].
Proof. intros p []. Qed.
Lemma tame_cons p l : tame p -> all_tame l -> all_tame (p :: l).
Proof. intros A B q [<-|I]; auto. Qed.
Lemma tame_flat {A} (g : A -> list piece) l : (forall x, In x l -> all_tame (g x)) -> all_tame (flat_map g l).
Proof. intros H p I. apply in_flat_map in I. destruct I as [x [I J]]. exact (H x I p J). Qed.
Lemma tame_repeat b l : incl b binders ->
  (forall n, In n l -> In n b -> covers c w n \/ (fst n = Lifetimes /\ opens c n /\
      ((exists f, In n (w_type w f)) \/ In n (w_error w)))) -> all_tame (repeat_ b l).
Proof.
  intros B H p I. apply in_map_iff in I. destruct I as [n [<- I]]. simpl. split; auto.
Qed.
Lemma tame_repeat_nil l : all_tame (repeat_ [] l).
Proof. apply tame_repeat; [intros x []|intros n _ []]. Qed.

Lemma struct_said : asks c (Types, c_ident c) Generated.
Proof. constructor. unfold made, struct_name. simpl. auto. Qed.
Lemma builder_said n : In n (builder_name c) -> asks c n Generated.
Proof. intro I. constructor. unfold made. rewrite !in_app_iff. auto. Qed.
Lemma shadow_said n : In n (shadow_name c) -> asks c n Generated.
Proof. intro I. constructor. unfold made. rewrite !in_app_iff. auto. Qed.
End Pieces.
