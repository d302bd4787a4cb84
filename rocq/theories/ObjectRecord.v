(** A shared object is a record of cells; it goes on unless builders wait for each other. *)
From Coq Require Import List Bool String Arith Lia.
From Verif Require Import ProxyTypes ArgsModel CtxModel RustAst CommonGen StructGen FieldSpec FieldRun GuardCell
  ThreadSpec ThreadModel LockedModel ObjectSpec ObjectModel ObjectProofs ObjectParts.
Import ListNotations.
Open Scope list_scope.

Section Object.
Variables (c : sctx) (fo : list (field * option nat)) (ps : list part).
Variable bld : nat -> nat -> outcome nat nat.
Variables (dflt : nat) (user : string -> nat).
Hypothesis Sk : forall f o, In (f, o) fo -> f_is_skipped f = false.
Hypothesis Po : map (fun x => part_of c (fst x) (snd x)) fo = map Some ps.
Hypothesis Wk : forall f o ms k, In (f, o) fo -> field_methods c f = GOk ms -> In k (map m_kind ms) -> works c f k = true.
Definition roles_of : list role := map (fun x => mk_role (view_of c (fst x)) (is_async c (fst x)) (snd x)) fo.

Lemma same_number : List.length fo = List.length ps.
Proof. rewrite <- (map_length (fun x => part_of c (fst x) (snd x)) fo), Po, map_length. reflexivity. Qed.
Lemma its_part i f o : nth_error fo i = Some (f, o) -> exists p, nth_error ps i = Some p /\ part_of c f o = Some p /\
  f_is_skipped f = false /\ forall k, In k (map m_kind (p_methods p)) -> works c f k = true.
Proof.
  intros H. pose proof (nth_error_In _ _ H) as I.
  pose proof (map_nth_error (fun x => part_of c (fst x) (snd x)) _ _ H) as N. rewrite Po in N. cbn [fst snd] in N.
  destruct (nth_error ps i) as [p|] eqn:E.
  - rewrite (map_nth_error Some _ _ E) in N. injection N as N. exists p. split; [reflexivity|]. split; [auto|]. split; [exact (Sk f o I)|].
    intros k K. destruct (part_facts c f o p (eq_sym N)) as (t & ms & Ht & M & Hs & Hr & Pm & Hf & Hc). rewrite Pm in K. exact (Wk f o _ k I M K).
  - apply nth_error_None in E. rewrite <- (map_length (@Some part)) in E. apply nth_error_None in E. congruence.
Qed.
Theorem object_history l s h t : object_run dflt user ps l = Some (s, h, t) -> (forall i, oracle (bld i) (at_field i t)) ->
  exists ws, rruns bld dflt roles_of (rstart roles_of) h ws.
Proof.
  intros H O. unfold object_run in H. destruct (run_fields dflt user ps l _ _ _ _ H) as [_ Bound].
  assert (Len : List.length roles_of = List.length ps) by (unfold roles_of; rewrite map_length; exact same_number).
  apply merge.
  - rewrite Len. exact Bound.
  - unfold rstart. apply map_length.
  - intros i r w Hr Hw. unfold roles_of in Hr.
    destruct (nth_error fo i) as [[f o]|] eqn:E.
    2:{ apply nth_error_None in E. rewrite <- (map_length (fun x => mk_role (view_of c (fst x)) (is_async c (fst x)) (snd x))) in E.
        apply nth_error_None in E. congruence. }
    rewrite (map_nth_error _ _ _ E) in Hr. injection Hr as <-. cbn [fst snd] in *.
    unfold rstart, roles_of in Hw. rewrite map_map in Hw. rewrite (map_nth_error _ _ _ E) in Hw. injection Hw as <-. cbn [fst snd r_start r_view r_cancellable].
    destruct (its_part i f o E) as (p & Hp & P & S1 & W).
    destruct (project dflt user ps l _ _ _ _ H i p (part_start p) Hp) as (f1 & _ & R).
    { unfold ostart. cbn. apply map_nth_error, Hp. }
    exact (part_history c f (bld i) dflt user o p S1 P W _ _ _ _ R (O i)).
Qed.

(** ** Progress *)
Variable rank : nat -> nat.
Definition descending (l : list oact) : Prop := forall i b j a k n, In (OInner i b j a k n) l -> rank j < rank i.
Lemma inner_descends l : descending l -> forall s s' h t, orun dflt user ps s l = Some (s', h, t) ->
  (forall e, In e (o_inner s) -> rank (fst (fst e)) < rank (fst (snd e))) ->
  forall e, In e (o_inner s') -> rank (fst (fst e)) < rank (fst (snd e)).
Proof.
  induction l as [|x l IH]; intros D s s' h t H K.
  - injection H as <- <- <-. exact K.
  - cbn [orun] in H. destruct (ostep dflt user ps s x) as [[[s1 h1] t1]|] eqn:St; [|discriminate H].
    destruct (orun dflt user ps s1 l) as [[[s2 h2] t2]|] eqn:Rn; [|discriminate H]. injection H as <- <- <-.
    apply (IH (fun i b j a k n I => D i b j a k n (or_intror I)) _ _ _ _ Rn).
    assert (Fg : forall z e, In e (forget z (o_inner s)) -> rank (fst (fst e)) < rank (fst (snd e))).
    { intros z e I. apply filter_In in I as [I _]. exact (K e I). }
    destruct x as [i y|i b j a k n]; cbn in St.
    + destruct (held s i y); [discriminate St|]. destruct (field_step dflt user ps s i y) as [[[fs h0] t0]|]; [|discriminate St].
      injection St as <- _ _. intros e I. cbn in I. destruct y; first [exact (Fg _ e I)|exact (K e I)].
    + destruct (building dflt user ps s i b && free_to_call ps s i b); [|discriminate St].
      destruct (field_step dflt user ps s j (MInvoke a k n)) as [[[fs h0] t0]|]; [|discriminate St].
      injection St as <- _ _. intros e [<-|I]; [cbn; exact (D i b j a k n (or_introl eq_refl))|exact (Fg _ e I)].
Qed.
Lemma orun_snoc l : forall s s1 h t x, orun dflt user ps s l = Some (s1, h, t) -> ostep dflt user ps s1 x <> None ->
  orun dflt user ps s (l ++ [x]) <> None.
Proof.
  induction l as [|y l IH]; intros s s1 h t x H N; cbn [orun app] in *.
  - injection H as <- <- <-. destruct (ostep dflt user ps s x) as [[[? ?] ?]|]; [discriminate|congruence].
  - destruct (ostep dflt user ps s y) as [[[s2 h2] t2]|]; [|discriminate H].
    destruct (orun dflt user ps s2 l) as [[[s3 h3] t3]|] eqn:Q; [|discriminate H]. injection H as <- <- <-.
    pose proof (IH _ _ _ _ x Q N) as Z. destruct (orun dflt user ps s2 (l ++ [x])) as [[[? ?] ?]|]; [discriminate|congruence].
Qed.
Lemma same_eq x y : same x y = true -> x = y.
Proof.
  destruct x, y. unfold same. cbn. intros H. apply andb_true_iff in H as [A B]. apply Nat.eqb_eq in A, B. congruence.
Qed.
Theorem object_moves l s h t i a : object_run dflt user ps l = Some (s, h, t) -> descending l ->
  acting (o_fields s) (i, a) = true ->
  let next x := object_run dflt user ps (l ++ [x]) in
  (exists j b, next (OAct j (MGo b)) <> None \/ next (OAct j (MStep b)) <> None) \/
  (exists j b, forall out, next (OAct j (MBuilt b out)) <> None) \/
  (exists j fs b g, nth_error (o_fields s) j = Some fs /\ place_of fs b = Keeps g).
Proof.
  intros H D A next.
  assert (K : forall y, ostep dflt user ps s y <> None -> next y <> None).
  { intros y Ny. exact (orun_snoc l _ _ _ _ y H Ny). }
  assert (Inn : forall e, In e (o_inner s) -> rank (fst (fst e)) < rank (fst (snd e))).
  { apply (inner_descends l D _ _ _ _ H). intros e []. }
  remember (rank i) as n eqn:En. revert i a A En. induction n as [n IH] using lt_wf_ind. intros i a A En.
  unfold acting in A. cbn [fst snd] in A. destruct (nth_error (o_fields s) i) as [fs|] eqn:Hf; [|discriminate A].
  assert (Li : i < List.length ps).
  { destruct (run_fields dflt user ps l _ _ _ _ H) as [Ln _]. unfold ostart in Ln. cbn [o_fields] in Ln. rewrite map_length in Ln.
    rewrite <- Ln. apply nth_error_Some. congruence. }
  destruct (nth_error fo i) as [[f o]|] eqn:E; [|apply nth_error_None in E; rewrite same_number in E; lia].
  destruct (its_part i f o E) as (p & Hp & P & S1 & W).
  destruct (project dflt user ps l _ _ _ _ H i p (part_start p) Hp) as (f1 & Hf1 & R).
  { unfold ostart. cbn. apply map_nth_error, Hp. }
  rewrite Hf in Hf1. injection Hf1 as <-.
  assert (Nf : place_of fs a <> Free) by (intros Z; rewrite Z in A; discriminate A).
  assert (Own : forall y, part_step dflt user p fs y <> None -> held s i y = false ->
    match y with MInvoke _ _ _ | MUse _ _ => False | _ => True end -> ostep dflt user ps s (OAct i y) <> None).
  { intros y Ny Hh _. unfold ostep. rewrite Hh. unfold field_step. rewrite Hp, Hf.
    destruct (part_step dflt user p fs y) as [[[? ?] ?]|]; [discriminate|congruence]. }
  destruct (part_moves c f (bld i) dflt user o p S1 P W _ _ _ _ a R Nf) as [(b & [B|B])|[(b & B)|(b & g & B)]].
  - left. exists i, b. left. apply K, Own; [exact B|reflexivity|exact I].
  - left. exists i, b. right. apply K, Own; [exact B|reflexivity|exact I].
  - destruct (inside s (i, b)) eqn:In1.
    + unfold inside in In1. apply existsb_exists in In1 as ([[j d] q] & I & Q). apply andb_true_iff in Q as [Q1 Q2]. cbn in Q1, Q2.
      apply same_eq in Q1. subst q. pose proof (Inn _ I) as Lt. cbn in Lt.
      apply (IH (rank j)) with (i := j) (a := d); [lia|exact Q2|reflexivity].
    + right. left. exists i, b. intros out. apply K, Own; [apply B|exact In1|exact I].
  - right. right. exists i, fs, b, g. auto.
Qed.
End Object.
