(** Repeated arguments are refused, at any depth. *)
From Coq Require Import List Bool String Ascii Permutation Lia.
From Verif Require Import ArgsModel ArgsSpec ArgsProofs TokenSpec TokenModel ParseModel ParseSpec ParseFacts ParseProofs
  ParseForms.
Import ListNotations.
Open Scope string_scope.
Open Scope list_scope.

Definition rep_meta (m : smeta) : Prop :=
  exists p d ts ds, m = SList p d ts /\ ~ In (path_name p) ordered /\ arguments ds ts /\ repeated ds.
Inductive bad : list nmeta -> Prop :=
| bad_names : forall i1 m1 i2 m2 i3,
    meta_name m1 = meta_name m2 \/ no_colon (meta_name m1) = false \/ no_colon (meta_name m2) = false ->
    bad (i1 ++ NMeta m1 :: i2 ++ NMeta m2 :: i3)
| bad_lits : forall l, 2 <= List.length (literals l) -> bad l
| bad_inside : forall l m, In (NMeta m) l -> rep_meta m -> bad l.

Lemma all_some_split {A B} (f : A -> option B) l1 a l2 bs : all_some f (l1 ++ a :: l2) = Some bs ->
  exists b1 b b2, bs = b1 ++ b :: b2 /\ all_some f l1 = Some b1 /\ f a = Some b /\ all_some f l2 = Some b2.
Proof.
  intros H. apply all_some_Forall2 in H. apply Forall2_app_inv_l in H. destruct H as (b1 & b2 & F1 & F2 & ->).
  inversion F2; subst. exists b1, y, l'. rewrite !all_some_Forall2. auto.
Qed.
Lemma literals_app l l' : literals (l ++ l') = literals l ++ literals l'.
Proof. unfold literals. apply flat_map_app. Qed.
Lemma non_literals_app l l' : non_literals (l ++ l') = non_literals l ++ non_literals l'.
Proof. apply filter_app. Qed.
Lemma two_literals i1 x i2 y i3 : 2 <= List.length (literals (i1 ++ NLit x :: i2 ++ NLit y :: i3)).
Proof. rewrite literals_app. simpl. rewrite literals_app. simpl. rewrite !app_length. simpl. rewrite app_length. simpl. lia. Qed.
(** The first segment of a path. *)
Lemma first_segment n c m : for_name n c -> parse_nested c = Some (NMeta m) ->
  meta_name m = n \/ no_colon (meta_name m) = false.
Proof.
  intros (r & A) P. destruct (no_colon (meta_name m)) eqn:C; [|right; reflexivity]. left.
  destruct (parse_nested_inv _ _ P) as [T M]. pose proof (meta_argument m _ M eq_refl C) as A'. rewrite <- T in A'.
  symmetry. exact (proj1 (argument_for_fun _ _ _ _ _ A A')).
Qed.
Lemma name_literal n c s : for_name n c -> parse_nested c = Some (NLit s) -> segment_ok n = false.
Proof.
  intros (r & A) P. destruct (segment_ok n) eqn:S; [|reflexivity]. exfalso.
  unfold parse_nested in P. rewrite (not_literal _ _ _ S A) in P.
  destruct (parse_meta c); discriminate.
Qed.
Lemma name_meta n c m : for_name n c -> parse_nested c = Some (NMeta m) -> segment_ok n = true.
Proof.
  intros (r & A) P. destruct (parse_nested_inv _ _ P) as [T (N & Q & _)].
  destruct (argument_tokens _ _ _ A) as (ab & E). rewrite T in E.
  destruct m as [[ab' l]|[ab' l] d g|[ab' l] v]; simpl in N, Q, E; unfold path_toks in E; simpl in E;
    (destruct l as [|x l]; [contradiction|]); inversion Q; subst; destruct ab, ab', l; simpl in E;
    inversion E; subst; assumption.
Qed.
Lemma repeated_bad cs items : repeated cs -> all_some parse_nested cs = Some items -> bad items.
Proof.
  destruct 1 as [cs n T|cs T|cs n c d g ds J O A Ad R]; intros AS.
  - destruct T as [l1 c l2 c' l3 F F'].
    destruct (all_some_split _ _ _ _ _ AS) as (i1 & x & q & -> & _ & X & AS').
    destruct (all_some_split _ _ _ _ _ AS') as (i2 & y & i3 & -> & _ & Y & _).
    destruct x as [s|m], y as [s'|m'].
    + apply bad_lits. apply two_literals.
    + pose proof (name_meta _ _ _ F' Y). pose proof (name_literal _ _ _ F X). congruence.
    + pose proof (name_meta _ _ _ F X). pose proof (name_literal _ _ _ F' Y). congruence.
    + apply bad_names. destruct (first_segment _ _ _ F X) as [E|E]; [|tauto].
      destruct (first_segment _ _ _ F' Y) as [E'|E']; [left; congruence|tauto].
  - destruct T as [l1 c l2 c' l3 (s & ->) (s' & ->)].
    destruct (all_some_split _ _ _ _ _ AS) as (i1 & x & q & -> & _ & X & AS').
    destruct (all_some_split _ _ _ _ _ AS') as (i2 & y & i3 & -> & _ & Y & _).
    inversion X; subst. inversion Y; subst. apply bad_lits. apply two_literals.
  - destruct (all_some_In _ _ _ _ AS J) as (i & I & P).
    assert (L : forall s, i <> NLit s).
    { intros s ->. unfold parse_nested in P.
      assert (N : parse_lit c = None) by (inversion A; subst; reflexivity). rewrite N in P.
      destruct (parse_meta c); discriminate. }
    destruct i as [s|m]; [exfalso; exact (L s eq_refl)|].
    assert (S : segment_ok n = true) by (apply (name_meta n c m); [exists [TGroup d g]; exact A|exact P]).
    destruct (argument_parsed _ _ _ S A Logic.I) as (ab & E). rewrite P in E.
    apply bad_inside with m; [exact I|]. exists (mk_path ab [n]), d, g, ds.
    split; [destruct d; inversion E; reflexivity|]. auto.
Qed.

(** ** Readers *)
Definition strict {A} (f : smeta -> option A) : Prop := forall m, rep_meta m -> f m = None.
Definition strict_list {A} (fl : list nmeta -> option A) : Prop :=
  forall l, bad l -> 2 <= List.length (literals l) \/ fl (non_literals l) = None.
Definition strict_set {A} (st : A -> list string -> option A) : Prop :=
  forall a x y l, st a (x :: y :: l) = None.
Lemma nesting_strict {A} kw fl fv (st : A -> list string -> option A) :
  strict_list fl -> strict_set st -> strict (nesting kw fl fv st).
Proof.
  intros SL SS m (p & d & ts & ds & -> & _ & A' & R). simpl. unfold extract_literals.
  rewrite (arguments_list _ _ A'). destruct (all_some parse_nested ds) as [items|] eqn:AS; [|reflexivity].
  cbn [obind]. destruct (SL _ (repeated_bad _ _ R AS)) as [L|E].
  - destruct (fl (non_literals items)); [|reflexivity]. cbn [obind].
    destruct (literals items) as [|x [|y l]]; simpl in L; try lia. apply SS.
  - rewrite E. reflexivity.
Qed.
Lemma non_literals_bad l : bad l -> 2 <= List.length (literals l) \/ bad (non_literals l).
Proof.
  destruct 1 as [i1 m1 i2 m2 i3 N|l L|l m I R]; [right|left; exact L|right].
  - rewrite non_literals_app. simpl. rewrite non_literals_app. simpl. apply bad_names. exact N.
  - apply bad_inside with m; [|exact R]. apply filter_In. split; [exact I|reflexivity].
Qed.
Lemma collect_bad known l seen : forallb no_colon known = true -> bad l -> collect known [] l = Some seen ->
  exists n m, assoc n seen = Some m /\ rep_meta m /\ In n known /\ ~ In n ordered.
Proof.
  intros K B C. apply collect_nil in C. destruct C as (ms & -> & F & D & ->).
  rewrite Forall_forall in F. rewrite forallb_forall in K.
  inversion B as [i1 m1 i2 m2 i3 N E|l L E|l m I R E]; subst.
  - exfalso. assert (Q : exists a b c, ms = a ++ m1 :: b ++ m2 :: c).
    { symmetry in E. apply map_eq_app in E. destruct E as (a & r & -> & _ & E).
      destruct r as [|x r]; [discriminate|]. simpl in E. inversion E; subst.
      symmetry in H1. apply eq_sym, map_eq_app in H1. destruct H1 as (b & c & -> & _ & E').
      destruct c as [|y c]; [discriminate|]. simpl in E'. inversion E'; subst. exists a, b, c. reflexivity. }
    destruct Q as (a & b & c & ->).
    assert (C1 : no_colon (meta_name m1) = true).
    { apply K, F. apply in_app_iff. right. left. reflexivity. }
    assert (C2 : no_colon (meta_name m2) = true).
    { apply K, F. apply in_app_iff. right. right. apply in_app_iff. right. left. reflexivity. }
    destruct N as [N|[N|N]]; [|congruence|congruence].
    rewrite map_app in D. simpl in D. apply NoDup_remove_2 in D. apply D. apply in_app_iff. right.
    rewrite map_app. apply in_app_iff. right. left. symmetry. exact N.
  - exfalso. destruct (lits_metas ms) as [L' _]. rewrite L' in L. simpl in L. lia.
  - apply in_map_iff in I. destruct I as (x & X & I). inversion X; subst x.
    exists (meta_name m), m. split; [apply assoc_entries; auto|]. split; [exact R|]. split; [apply F; exact I|].
    destruct R as (p & d & ts & ds & -> & O & _). exact O.
Qed.
Lemma collect_strict {A} known (k : list (string * smeta) -> option A) :
  forallb no_colon known = true ->
  (forall seen n m, assoc n seen = Some m -> rep_meta m -> ~ In n ordered -> In n known -> k seen = None) ->
  strict_list (fun l => get? seen := collect known [] l in k seen).
Proof.
  intros K H l B. destruct (non_literals_bad _ B) as [L|B']; [left; exact L|right].
  destruct (collect known [] (non_literals l)) as [seen|] eqn:C; [|reflexivity]. cbn [obind].
  destruct (collect_bad _ _ _ K B' C) as (n & m & E & R & I & O). exact (H seen n m E R O I).
Qed.
Lemma opt_strict {A} n (f : smeta -> option A) seen m : strict f -> assoc n seen = Some m -> rep_meta m ->
  opt_arg seen n f = None.
Proof. intros S E R. unfold opt_arg. rewrite E, (S _ R). reflexivity. Qed.
Lemma flag_strict n seen m : assoc n seen = Some m -> rep_meta m -> flag seen n = None.
Proof. intros E (p & d & ts & ds & -> & _). unfold flag. rewrite E. reflexivity. Qed.
Create HintDb strict.
Ltac stricts :=
  intros seen n m E R O I; simpl in I;
  repeat (destruct I as [<- | I]; [first [exfalso; apply O; simpl; tauto |
    repeat match goal with
    | |- obind (opt_arg seen ?k ?f) _ = None =>
        match type of E with assoc k seen = _ =>
          rewrite (opt_strict k f seen m ltac:(auto with strict) E R); reflexivity end
    | |- obind (flag seen ?k) _ = None =>
        match type of E with assoc k seen = _ => rewrite (flag_strict k seen m E R); reflexivity end
    | |- flag seen ?k = None => rewrite (flag_strict k seen m E R); reflexivity
    | |- obind ?e _ = None => destruct e; [cbn [obind]|reflexivity]
    end]|]); destruct I.
Lemma value_strict : strict_list value_from_list.
Proof. apply (collect_strict ["off"]); [reflexivity|]. stricts. Qed.
Lemma none_strict {A} : strict_set (fun (_ : A) _ => None).
Proof. intros a x y l. reflexivity. Qed.
Lemma bool_arg_strict : strict bool_arg.
Proof.
  intros m R. unfold bool_arg.
  rewrite (nesting_strict (Some false) value_from_list no_value _ value_strict none_strict m R). reflexivity.
Qed.
Lemma string_arg_strict : strict string_arg.
Proof.
  apply nesting_strict.
  - intros l B. destruct (value_strict l B) as [L|E]; [left; exact L|right; rewrite E; reflexivity].
  - intros a x y l. reflexivity.
Qed.
Lemma bool_from_meta_strict : strict bool_from_meta.
Proof. intros m (p & d & ts & ds & -> & _). reflexivity. Qed.
Lemma path_arg_strict : strict path_from_meta.
Proof. intros m (p & d & ts & ds & -> & _). reflexivity. Qed.
Lemma pub_arg_strict : strict pub_arg.
Proof.
  apply nesting_strict; [|exact none_strict]. intros l B.
  destruct (non_literals_bad _ B) as [L|B']; [left; exact L|right].
  inversion B' as [i1 m1 i2 m2 i3 N E|l' L E|l' m I R E].
  - destruct i1 as [|x i1]; [|destruct x, i1; reflexivity]. destruct i2; reflexivity.
  - destruct (non_literals l) as [|x [|y r]]; [simpl in L; lia| |destruct x; reflexivity].
    destruct x; simpl in L; [|lia]. reflexivity.
  - destruct (non_literals l) as [|x [|y r]]; [destruct I| |destruct x; reflexivity].
    destruct I as [->|[]]. destruct R as (p & d & ts & ds & -> & _). simpl.
    destruct (String.eqb (meta_name (SList p d ts)) "crate"); [reflexivity|].
    destruct (String.eqb (meta_name (SList p d ts)) "super"); [reflexivity|].
    destruct (String.eqb (meta_name (SList p d ts)) "in_mod"); reflexivity.
Qed.
#[export] Hint Resolve bool_arg_strict string_arg_strict bool_from_meta_strict pub_arg_strict : strict.
Lemma literal_name_strict x y l : literal_name (x :: y :: l) = None.
Proof. reflexivity. Qed.
Lemma helper_of_strict seen n m : assoc n seen = Some m -> rep_meta m -> ~ In n ordered -> In n helper_names ->
  helper_of seen = None.
Proof. unfold helper_of. revert seen n m. stricts. Qed.
Lemma helper_arg_strict : strict helper_arg.
Proof.
  apply nesting_strict; [|intros a x y l; reflexivity].
  apply (collect_strict helper_names); [reflexivity|]. exact helper_of_strict.
Qed.
(** A helper with more arguments. *)
Ltac with_helper :=
  intros seen n m E R O I; apply in_app_iff in I; destruct I as [I|I];
  [rewrite (helper_of_strict seen n m E R O I); reflexivity|];
  destruct (helper_of seen); [cbn [obind]|reflexivity]; revert seen n m E R O I; stricts.
Lemma accessor_arg_strict : strict accessor_arg.
Proof.
  apply nesting_strict; [|intros a x y l; reflexivity].
  apply (collect_strict (helper_names ++ ["clone"; "copy"; "as_ref"])); [reflexivity|]. with_helper.
Qed.
Lemma setter_arg_strict : strict setter_arg.
Proof.
  apply nesting_strict; [|intros a x y l; reflexivity].
  apply (collect_strict (helper_names ++ ["into"])); [reflexivity|]. with_helper.
Qed.
Lemma builder_arg_strict b : strict (builder_arg b).
Proof.
  apply nesting_strict; [|intros a x y l; reflexivity].
  apply (collect_strict (helper_names ++ builder_names)); [reflexivity|]. with_helper.
Qed.
Lemma fallible_arg_strict : strict fallible_arg.
Proof.
  apply nesting_strict; [|exact none_strict]. apply (collect_strict ["off"; "error"]); [reflexivity|]. stricts.
Qed.
Lemma serde_arg_strict : strict serde_arg.
Proof.
  apply nesting_strict; [|intros a x y l; reflexivity]. apply (collect_strict serde_names); [reflexivity|]. stricts.
Qed.
#[export] Hint Resolve helper_arg_strict accessor_arg_strict setter_arg_strict builder_arg_strict fallible_arg_strict
  serde_arg_strict : strict.
Lemma sargs_of_strict seen n m : assoc n seen = Some m -> rep_meta m -> ~ In n ordered -> In n struct_names ->
  sargs_of seen = None.
Proof. unfold sargs_of. revert seen n m. stricts. Qed.
Lemma field_of_strict i v t a seen n m : assoc n seen = Some m -> rep_meta m -> ~ In n ordered ->
  In n field_names -> field_of i v t a seen = None.
Proof. unfold field_of. revert seen n m. stricts. Qed.

Lemma repeated_struct ft cs ts : arguments cs ts -> repeated cs -> read_struct ft ts = None.
Proof.
  intros A R. destruct (read_struct ft ts) as [s|] eqn:E; [exfalso|reflexivity].
  unfold read_struct in E. rewrite (arguments_list _ _ A) in E.
  destruct (all_some parse_nested cs) as [items|] eqn:AS; [|discriminate]. cbn [obind] in E.
  destruct (collect struct_names [] items) as [seen|] eqn:C; [|discriminate]. cbn [obind] in E.
  destruct (collect_bad struct_names _ _ eq_refl (repeated_bad _ _ R AS) C) as (n & m & E' & R' & I & O).
  rewrite (sargs_of_strict seen n m E' R' O I) in E. discriminate.
Qed.
Lemma repeated_field ft i v t a l cs : gathered l cs -> repeated cs -> read_field ft i v t a l = None.
Proof.
  intros A R. destruct (read_field ft i v t a l) as [s|] eqn:E; [exfalso|reflexivity].
  unfold read_field in E. rewrite (gathered_items _ _ A) in E.
  destruct (all_some parse_nested cs) as [items|] eqn:AS; [|discriminate]. cbn [obind] in E.
  destruct (collect field_names [] items) as [seen|] eqn:C; [|discriminate]. cbn [obind] in E.
  destruct (collect_bad field_names _ _ eq_refl (repeated_bad _ _ R AS) C) as (n & m & E' & R' & I & O).
  rewrite (field_of_strict i v t a seen n m E' R' O I) in E. discriminate.
Qed.
