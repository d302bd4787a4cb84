(** Proofs about sessions of one thread with all the fields of an object. *)
From Coq Require Import List Bool String Arith Lia.
From Verif Require Import ProxyTypes ArgsModel CtxModel RustAst RustSem CommonGen StructGen CodegenSpec FieldSpec FieldRun FieldProofs FieldSeq FieldStruct GuardCell
  ThreadSpec ThreadModel ObjectSpec ObjectModel ObjectProofs SerdeModel LifeSpec LifeModel LifeProofs LifeRecord SessionSpec SessionModel.
Import ListNotations.
Open Scope list_scope.

Section Session.
Variable bld : nat -> nat -> outcome nat nat.
Variables (dflt : nat) (user : string -> nat) (c : sctx) (fs : list field).
Hypothesis Sk : forall f, In f fs -> f_is_skipped f = false.
Hypothesis Wk : forall f ms k, In f fs -> field_methods c f = GOk ms -> In k (map m_kind ms) -> works c f k = true.
Notation views := (map (view_of c) fs).

(** A storage with its guards is as this cell with its guards. *)
Definition stands (f : field) (iu : ist) (u : ust) : Prop := exists t, field_type c f = GOk t /\ sim (view_of c f) t iu u.
Definition stand (ius : list ist) (us : list ust) : Prop :=
  List.length ius = List.length fs /\ List.length us = List.length fs /\
  forall i f iu u, nth_error fs i = Some f -> nth_error ius i = Some iu -> nth_error us i = Some u -> stands f iu u.

Lemma act_stands i f ms a iu u o u' : In f fs -> field_methods c f = GOk ms -> only_calls (offered ms) [a] = true -> stands f iu u ->
  spec_act (bld i) dflt (view_of c f) a u = Some (o, u') ->
  exists iu', impl_act (bld i) (is_fallible c f) true dflt user ms a iu = Some (o, iu') /\ stands f iu' u'.
Proof.
  intros If M Of (t & T & Si) Sp. pose proof (Sk f If) as Sf. unfold f_is_skipped in Sf.
  pose proof (offered_works c fs Wk f ms [a] If M Of) as W. unfold only_calls in W. cbn [forallb] in W. apply andb_prop in W as [W _].
  destruct (step_sim (bld i) dflt (view_of c f) t (field_fits c f t Sf T) (is_fallible c f) true user ms (works c f)
    (field_method (bld i) dflt user true c f t ms Sf T M (fun _ => eq_refl)) (field_writer_locked c f) a iu u o u' Si W Sp) as (iu' & E & S').
  exists iu'. split; [exact E|]. exists t. auto.
Qed.
Lemma stand_put ius us i f iu u : stand ius us -> nth_error fs i = Some f -> stands f iu u -> stand (put ius i iu) (put us i u).
Proof.
  intros (A & B & C) F S1. split; [rewrite put_length; exact A|]. split; [rewrite put_length; exact B|].
  intros j g x y G X Y. destruct (Nat.eq_dec i j) as [<-|N].
  - rewrite F in G. injection G as <-.
    destruct (nth_error ius i) as [z|] eqn:Z; [|apply nth_error_None in Z; assert (i < List.length fs) by (apply nth_error_Some; congruence); lia].
    destruct (nth_error us i) as [z'|] eqn:Z'; [|apply nth_error_None in Z'; assert (i < List.length fs) by (apply nth_error_Some; congruence); lia].
    rewrite (put_same _ _ _ _ Z) in X. rewrite (put_same _ _ _ _ Z') in Y. injection X as <-. injection Y as <-. exact S1.
  - rewrite put_other in X by exact N. rewrite put_other in Y by exact N. exact (C j g x y G X Y).
Qed.
Theorem session_sim : forall l ius us os us', session_offered c fs l = true -> stand ius us -> spec_session bld dflt views l us = Some (os, us') ->
  exists ius', impl_session bld dflt user c fs l ius = Some (os, ius') /\ stand ius' us'.
Proof.
  induction l as [|[i a] l IH]; intros ius us os us' Of St H; cbn [spec_session] in H.
  - injection H as <- <-. exists ius. split; [reflexivity|exact St].
  - unfold session_offered in Of. cbn [forallb fst snd] in Of. apply andb_prop in Of as [O1 O2].
    destruct (nth_error fs i) as [f|] eqn:F; [|discriminate O1]. destruct (field_methods c f) as [ms| |] eqn:M; try discriminate O1.
    rewrite (map_nth_error (view_of c) _ _ F) in H. destruct (nth_error us i) as [u|] eqn:U; [|discriminate H].
    destruct (spec_act (bld i) dflt (view_of c f) a u) as [[o u1]|] eqn:A; [|discriminate H].
    destruct (nth_error ius i) as [iu|] eqn:I.
    2:{ apply nth_error_None in I. assert (i < List.length fs) by (apply nth_error_Some; congruence). destruct St as (L & _). lia. }
    destruct (act_stands i f ms a iu u o u1 (nth_error_In _ _ F) M O1 (proj2 (proj2 St) _ _ _ _ F I U) A) as (iu1 & E & S1).
    pose proof (stand_put _ _ i f iu1 u1 St F S1) as St1.
    cbn [impl_session]. rewrite I. unfold field_act. rewrite F, M, E.
    destruct o; try (injection H as <- <-; eexists; split; [reflexivity|exact St1]);
    (destruct (spec_session bld dflt views l (put us i u1)) as [[os1 us2]|] eqn:Q; [|discriminate H]; injection H as <- <-;
     destruct (IH _ _ _ _ O2 St1 Q) as (ius2 & -> & St2); eexists; split; [reflexivity|exact St2]).
Qed.
Lemma start_stand ks ws : stores c fs ks ws -> stand (all_fresh ws) (at_start ks).
Proof.
  intro St. destruct (stores_nth _ _ _ _ St) as (A & B & N). unfold all_fresh, at_start. split; [rewrite map_length; exact B|].
  split; [rewrite map_length; exact A|]. intros i f iu u F I U. rewrite nth_error_map in I, U.
  destruct (nth_error ws i) as [w|] eqn:W; [|discriminate I]. destruct (nth_error ks i) as [k|] eqn:K; [|discriminate U].
  injection I as <-. injection U as <-. destruct (N i f k w F K W) as (t & T & R). exists t. split; [exact T|].
  exact (start_sim _ _ _ _ _ _ R).
Qed.
Lemma end_stores ius us : stand ius us -> stores c fs (map u_val us) (map (fun x => fld (i_st x)) ius).
Proof.
  intros (A & B & C). revert ius us A B C. generalize fs as l. induction l as [|f l IH]; intros [|iu ius] [|u us] A B C; try discriminate A; try discriminate B; [exact I|].
  cbn. split.
  - destruct (C 0 f iu u eq_refl eq_refl eq_refl) as (t & T & [(S1 & _) _ _ _ _ _]). exists t. split; [exact T|exact S1].
  - apply IH; [cbn in A; lia|cbn in B; lia|]. intros i g x y G X Y. exact (C (S i) g x y G X Y).
Qed.
Lemma end_guards ius us i iu u : stand ius us -> nth_error ius i = Some iu -> nth_error us i = Some u ->
  List.length (i_guards iu) = List.length (u_guards u) /\ calls (i_st iu) = u_builds u.
Proof.
  intros (A & B & C) I U. destruct (nth_error fs i) as [f|] eqn:F.
  - destruct (C i f iu u F I U) as (t & _ & [(S1 & S2 & S3 & S4) G _ _ _ _]). split; [rewrite G; apply map_length|exact S4].
  - apply nth_error_None in F. assert (i < List.length ius) by (apply nth_error_Some; congruence). lia.
Qed.
(** *** Each field by itself *)
Theorem apart : forall l us os us', impl_session bld dflt user c fs l us = Some (os, us') ->
  List.length us' = List.length us /\
  forall i f ms u, nth_error fs i = Some f -> field_methods c f = GOk ms -> nth_error us i = Some u ->
  exists u', nth_error us' i = Some u' /\ impl_run (bld i) (is_fallible c f) true dflt user ms (done_with i l os) u = Some (seen_of i l os, u').
Proof.
  induction l as [|[j a] l IH]; intros us os us' H; cbn [impl_session] in H.
  - injection H as <- <-. split; [reflexivity|]. intros i f ms u F M U. exists u. split; [exact U|reflexivity].
  - destruct (nth_error us j) as [w|] eqn:W; [|discriminate H]. destruct (field_act bld dflt user c fs j a w) as [[o w1]|] eqn:A; [|discriminate H].
    assert (K : forall i f ms u, nth_error fs i = Some f -> field_methods c f = GOk ms -> nth_error us i = Some u ->
      exists u1, nth_error (put us j w1) i = Some u1 /\
        (i <> j -> u1 = u) /\ (i = j -> u1 = w1 /\ impl_act (bld i) (is_fallible c f) true dflt user ms a u = Some (o, w1))).
    { intros i f ms u F M U. destruct (Nat.eq_dec j i) as [<-|N].
      - exists w1. split; [exact (put_same _ _ _ _ W)|]. split; [congruence|]. intros _. split; [reflexivity|]. unfold field_act in A. rewrite F, M in A. congruence.
      - exists u. split; [rewrite put_other by exact N; exact U|]. split; [reflexivity|congruence]. }
    assert (R : o = OWait /\ os = [OWait] /\ us' = put us j w1 \/
      o <> OWait /\ exists os1, os = o :: os1 /\ impl_session bld dflt user c fs l (put us j w1) = Some (os1, us')).
    { destruct o; try (left; split; [reflexivity|]; split; congruence);
      (right; split; [discriminate|]; destruct (impl_session bld dflt user c fs l (put us j w1)) as [[os1 us2]|] eqn:Q; [|discriminate H];
       injection H as <- <-; exists os1; split; [reflexivity|exact eq_refl]). }
    clear H. destruct R as [(-> & -> & ->)|(Nw & os1 & -> & Q)].
    + split; [apply put_length|]. intros i f ms u F M U. destruct (K i f ms u F M U) as (u1 & E & K1 & K2). exists u1. split; [exact E|].
      cbn [done_with seen_of]. destruct (Nat.eqb j i) eqn:J.
      * apply Nat.eqb_eq in J. symmetry in J. destruct (K2 J) as [-> Z]. destruct l as [|[? ?] ?]; cbn [done_with seen_of impl_run]; rewrite Z; reflexivity.
      * apply Nat.eqb_neq in J. rewrite (K1 (not_eq_sym J)). destruct l as [|[? ?] ?]; reflexivity.
    + destruct (IH _ _ _ Q) as [L B]. split; [rewrite L; apply put_length|]. intros i f ms u F M U. destruct (K i f ms u F M U) as (u1 & E & K1 & K2).
      destruct (B i f ms u1 F M E) as (u' & E' & Z'). exists u'. split; [exact E'|]. cbn [done_with seen_of]. destruct (Nat.eqb j i) eqn:J.
      * apply Nat.eqb_eq in J. symmetry in J. destruct (K2 J) as [-> Z]. cbn [impl_run]. rewrite Z, Z'. destruct o; try reflexivity. congruence.
      * apply Nat.eqb_neq in J. rewrite (K1 (not_eq_sym J)) in Z'. exact Z'.
Qed.
Lemma done_offered i f ms : nth_error fs i = Some f -> field_methods c f = GOk ms -> forall l os, session_offered c fs l = true ->
  only_calls (offered ms) (done_with i l os) = true.
Proof.
  intros F M. induction l as [|[j a] l IH]; intros os H; [reflexivity|]. unfold session_offered in H. cbn [forallb fst snd] in H.
  apply andb_prop in H as [H1 H2]. destruct os as [|o os]; [reflexivity|]. cbn [done_with]. destruct (Nat.eqb j i) eqn:J; [|exact (IH os H2)].
  apply Nat.eqb_eq in J. subst j. rewrite F, M in H1. unfold only_calls in *. cbn [forallb] in *. apply andb_prop in H1 as [H1 _]. rewrite H1. exact (IH os H2).
Qed.
Definition scene_of (l : list (nat * act)) (os : list obs) (i : nat) : scene := Alone (bld i) i (done_with i l os) (seen_of i l os).
(** A session leaves the object as the scenes do in which its fields are used one by one. *)
Theorem scenes_apart l ws os ius : session_offered c fs l = true -> List.length ws = List.length fs ->
  (forall f, In f fs -> exists ms, field_methods c f = GOk ms) ->
  impl_session bld dflt user c fs l (all_fresh ws) = Some (os, ius) -> (forall iu, In iu ius -> i_guards iu = []) ->
  lives dflt user c fs ws (map (scene_of l os) (seq 0 (List.length fs))) (map (fun x => fld (i_st x)) ius).
Proof.
  intros Of Lw Me H Gu. destruct (apart _ _ _ _ H) as [Li Ap]. unfold all_fresh in Li. rewrite map_length in Li.
  set (new := map (fun x => fld (i_st x)) ius). assert (Ln : List.length new = List.length fs) by (unfold new; rewrite map_length; lia).
  assert (G : forall n k vs, k + n = List.length fs -> List.length vs = List.length fs -> (forall i, i < k -> nth_error vs i = nth_error new i) ->
    (forall i, k <= i -> nth_error vs i = nth_error ws i) -> lives dflt user c fs vs (map (scene_of l os) (seq k n)) new).
  { induction n as [|n IH]; intros k vs E Lv A B; cbn [seq map].
    - rewrite (put_list new vs) by (try lia; intros i Hi; apply A; lia). apply lv_end.
    - destruct (nth_error fs k) as [f|] eqn:F; [|apply nth_error_None in F; lia].
      destruct (Me f (nth_error_In _ _ F)) as (ms & M). destruct (nth_error ws k) as [w|] eqn:W; [|apply nth_error_None in W; lia].
      assert (U : nth_error (all_fresh ws) k = Some (fresh w 0)) by (unfold all_fresh; rewrite nth_error_map, W; reflexivity).
      destruct (Ap k f ms _ F M U) as (iu & I & R).
      assert (V : nth_error vs k = Some w) by (rewrite B by lia; exact W).
      assert (Nk : nth_error new k = Some (fld (i_st iu))) by (unfold new; rewrite nth_error_map, I; reflexivity).
      eapply lv_alone; [exact F|exact V|exact M|exact (done_offered k f ms F M l os Of)|exact R|exact (Gu iu (nth_error_In _ _ I))|].
      apply IH; [lia|rewrite put_length; exact Lv| |].
      + intros i Hi. destruct (Nat.eq_dec k i) as [<-|N]; [rewrite (put_same _ _ _ _ V); symmetry; exact Nk|]. rewrite put_other by exact N. apply A. lia.
      + intros i Hi. rewrite put_other by lia. apply B. lia. }
  apply (G (List.length fs) 0 ws); [reflexivity|exact Lw|intros i Hi; lia|reflexivity].
Qed.
End Session.
