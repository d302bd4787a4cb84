(** All the fields of a shared object at once. *)
From Coq Require Import List Bool String Arith Lia.
From Verif Require Import ProxyTypes ArgsModel CtxModel RustAst RustSem CommonGen PlainGen SyncGen StructGen CodegenSpec CodegenProofs
  FieldSpec FieldRun FieldProofs FieldStruct GuardCell ThreadSpec ThreadModel ThreadSim ThreadProofs LockedModel LockedSim LockedProofs
  ObjectSpec ObjectModel.
From Verif Require SyncProxyModel AsyncProxyModel.
Import ListNotations.
Open Scope list_scope.

(** ** Lists *)
Lemma put_same {A} (l : list A) i x y : nth_error l i = Some y -> nth_error (put l i x) i = Some x.
Proof. revert i. induction l as [|z l IH]; intros [|i] H; cbn in *; try discriminate H; [reflexivity|apply IH, H]. Qed.
Lemma put_other {A} (l : list A) i j x : i <> j -> nth_error (put l i x) j = nth_error l j.
Proof.
  revert i j. induction l as [|z l IH]; intros [|i] [|j] H; cbn; try reflexivity; [congruence|].
  apply IH. congruence.
Qed.
Lemma put_length {A} (l : list A) i x : List.length (put l i x) = List.length l.
Proof. revert i. induction l as [|z l IH]; intros [|i]; cbn; [reflexivity|reflexivity|reflexivity|rewrite IH; reflexivity]. Qed.
Lemma replace_put {A} (l : list A) i x : replace l i x = put l i x.
Proof. revert i. induction l as [|z l IH]; intros [|i]; cbn; try reflexivity. f_equal. apply IH. Qed.
Lemma at_same {A} i (t : list A) : at_field i (map (pair i) t) = t.
Proof.
  unfold at_field. induction t as [|e t IH]; [reflexivity|]. cbn [map filter fst]. rewrite Nat.eqb_refl. cbn. f_equal. exact IH.
Qed.
Lemma at_other {A} i j (t : list A) : i <> j -> at_field j (map (pair i) t) = [].
Proof.
  intros N. unfold at_field. induction t as [|e t IH]; [reflexivity|]. cbn [map filter fst].
  rewrite (proj2 (Nat.eqb_neq i j) N). exact IH.
Qed.
Lemma at_app {A} i (a b : list (nat * A)) : at_field i (a ++ b) = at_field i a ++ at_field i b.
Proof. unfold at_field. rewrite filter_app, map_app. reflexivity. Qed.

(** ** One timeline for all the cells *)
Section Merge.
Variable bld : nat -> nat -> outcome nat nat.
Variable dflt : nat.
Variable roles : list role.
Notation steps i r := (wruns (bld i) dflt (r_view r) (r_cancellable r)).

Lemma wruns_head b v cn w t w' : wruns b dflt v cn w t w' -> forall e t', t = e :: t' ->
  exists w1 w2, wruns b dflt v cn w [] w1 /\ wstep b dflt v cn w1 [e] w2 /\ wruns b dflt v cn w2 t' w'.
Proof.
  induction 1 as [w|w t1 w1 t2 w2 St Rn IH]; intros e t' E; [discriminate E|].
  assert (K : t1 = [] \/ exists z, t1 = [z]) by (inversion St; eauto).
  destruct K as [->|[z ->]]; cbn in E.
  - destruct (IH e t' E) as (x1 & x2 & A & B & C). exists x1, x2. split; [|auto].
    exact (wr_step b dflt v cn w [] w1 [] x1 St A).
  - injection E as -> ->. exists w, w1. split; [apply wr_nil|auto].
Qed.
Lemma quiet_lift i r w t w' : steps i r w t w' -> t = [] -> nth_error roles i = Some r ->
  forall ws, nth_error ws i = Some w -> exists ws', rruns bld dflt roles ws [] ws' /\ ws' = put ws i w'.
Proof.
  induction 1 as [w|w t1 w1 t2 w2 St Rn IH]; intros E Hr ws Hw.
  - exists ws. split; [apply rr_nil|]. symmetry. revert i Hr Hw. induction ws as [|z ws IHw]; intros [|i] Hr Hw; cbn in *; try discriminate Hw.
    + injection Hw as ->. reflexivity.
    + f_equal. clear IHw Hr. revert i Hw. induction ws as [|y ws IH]; intros [|i] Hw; cbn in *; try discriminate Hw.
      * injection Hw as ->. reflexivity.
      * f_equal. apply IH, Hw.
  - apply app_eq_nil in E as [-> ->].
    destruct (IH eq_refl Hr (put ws i w1) (put_same ws i w1 w Hw)) as (ws' & A & ->).
    exists (put (put ws i w1) i w2). split.
    + exact (rr_step bld dflt roles ws (map (pair i) []) _ [] _ (r_step bld dflt roles ws i r w [] w1 Hr Hw St) A).
    + clear. revert i. induction ws as [|z ws IH]; intros [|i]; cbn; try reflexivity. f_equal. apply IH.
Qed.
Lemma rruns_app ws t1 ws1 : rruns bld dflt roles ws t1 ws1 -> forall t2 ws2, rruns bld dflt roles ws1 t2 ws2 ->
  rruns bld dflt roles ws (t1 ++ t2) ws2.
Proof.
  induction 1 as [ws|ws t1 ws1 t2 ws2 St Rn IH]; intros t3 ws3 K; [exact K|].
  rewrite <- app_assoc. exact (rr_step _ _ _ _ _ _ _ _ St (IH _ _ K)).
Qed.
(** Histories of the cells that agree with one list of events are one history of the record. *)
Theorem merge h : (forall i e, In (i, e) h -> i < List.length roles) -> forall ws,
  List.length ws = List.length roles ->
  (forall i r w, nth_error roles i = Some r -> nth_error ws i = Some w -> exists w', steps i r w (at_field i h) w') ->
  exists ws', rruns bld dflt roles ws h ws'.
Proof.
  induction h as [|[i e] h IH]; intros In ws Len K.
  - exists ws. apply rr_nil.
  - assert (Li : i < List.length roles) by (apply (In i e); left; reflexivity).
    destruct (nth_error roles i) as [r|] eqn:Hr; [|apply nth_error_None in Hr; lia].
    destruct (nth_error ws i) as [w|] eqn:Hw; [|apply nth_error_None in Hw; lia].
    destruct (K i r w Hr Hw) as (w' & Rn).
    assert (E : at_field i ((i, e) :: h) = e :: at_field i h).
    { unfold at_field. cbn [filter fst]. rewrite Nat.eqb_refl. reflexivity. }
    destruct (wruns_head _ _ _ _ _ _ Rn _ _ E) as (w1 & w2 & A & B & C).
    destruct (quiet_lift i r w [] w1 A eq_refl Hr ws Hw) as (ws1 & A' & ->).
    pose proof (put_same ws i w1 w Hw) as Hw1.
    pose proof (r_step bld dflt roles (put ws i w1) i r w1 [e] w2 Hr Hw1 B) as B'.
    destruct (IH (fun j z I => In j z (or_intror I)) (put (put ws i w1) i w2)) as (ws' & R').
    { rewrite !put_length. exact Len. }
    { intros j q z Hq Hz. destruct (Nat.eq_dec i j) as [<-|N].
      - rewrite (put_same _ i w2 w1 Hw1) in Hz. injection Hz as <-. rewrite Hr in Hq. injection Hq as <-. eauto.
      - rewrite !(put_other _ i j) in Hz by exact N. destruct (K j q z Hq Hz) as (z' & Z).
        exists z'. unfold at_field in Z. cbn [filter fst] in Z. rewrite (proj2 (Nat.eqb_neq i j) N) in Z. exact Z. }
    exists ws'. exact (rruns_app _ _ _ A' _ _ (rr_step _ _ _ _ _ _ _ _ B' R')).
Qed.
End Merge.

(** ** One field of the object *)
Section Run.
Variable dflt : nat.
Variable user : string -> nat.
Section Part.
Variable p : part.
Fixpoint part_run (s : fstate) (l : list mact) : option (fstate * list hist * list (event nat nat)) :=
  match l with
  | [] => Some (s, [], [])
  | x :: l' =>
      match part_step dflt user p s x with
      | Some (s1, h1, t1) =>
          match part_run s1 l' with
          | Some (s2, h2, t2) => Some (s2, h1 ++ h2, t1 ++ t2)
          | None => None
          end
      | None => None
      end
  end.
Lemma part_run_snoc l : forall s s1 h t x, part_run s l = Some (s1, h, t) -> part_step dflt user p s1 x <> None ->
  part_run s (l ++ [x]) <> None.
Proof.
  induction l as [|y l IH]; intros s s1 h t x H N; cbn in *.
  - injection H as <- <- <-. destruct (part_step _ _ _ s x) as [[[? ?] ?]|]; [discriminate|congruence].
  - destruct (part_step _ _ _ s y) as [[[s2 h2] t2]|]; [|discriminate H].
    destruct (part_run s2 l) as [[[s3 h3] t3]|] eqn:Q; [|discriminate H]. injection H as <- <- <-.
    pose proof (IH _ _ _ _ x Q N) as Z. destruct (part_run s2 (l ++ [x])) as [[[? ?] ?]|]; [discriminate|congruence].
Qed.
End Part.

(** ** A schedule, seen from one field *)
Definition own_acts (i : nat) (l : list oact) : list mact :=
  flat_map (fun x => match x with
    | OAct j y => if Nat.eqb j i then [y] else []
    | OInner _ _ j a k n => if Nat.eqb j i then [MInvoke a k n] else []
    end) l.
Variable ps : list part.
Lemma field_step_own s i x fs h t : field_step dflt user ps s i x = Some (fs, h, t) ->
  exists p f0 f1 h0 t0, nth_error ps i = Some p /\ nth_error (o_fields s) i = Some f0 /\
    part_step dflt user p f0 x = Some (f1, h0, t0) /\ fs = put (o_fields s) i f1 /\ h = map (pair i) h0 /\ t = map (pair i) t0.
Proof.
  unfold field_step. intros H. destruct (nth_error ps i) as [p|] eqn:Hp; [|discriminate H].
  destruct (nth_error (o_fields s) i) as [f0|] eqn:Hf; [|discriminate H].
  destruct (part_step dflt user p f0 x) as [[[f1 h0] t0]|] eqn:St; [|discriminate H]. injection H as <- <- <-.
  exists p, f0, f1, h0, t0. rewrite replace_put. auto 10.
Qed.
Lemma ostep_acts s x s' h t : ostep dflt user ps s x = Some (s', h, t) ->
  exists i y, field_step dflt user ps s i y = Some (o_fields s', h, t) /\ forall j, own_acts j [x] = if Nat.eqb i j then [y] else [].
Proof.
  destruct x as [i y|i b j a k n]; cbn; intros H.
  - destruct (held s i y); [discriminate H|]. destruct (field_step dflt user ps s i y) as [[[fs h0] t0]|] eqn:F; [|discriminate H].
    injection H as <- <- <-. exists i, y. split; [exact F|]. intros j. destruct (Nat.eqb i j); reflexivity.
  - destruct (building dflt user ps s i b && free_to_call ps s i b); [|discriminate H].
    destruct (field_step dflt user ps s j (MInvoke a k n)) as [[[fs h0] t0]|] eqn:F; [|discriminate H].
    injection H as <- <- <-. exists j, (MInvoke a k n). split; [exact F|]. intros z. destruct (Nat.eqb j z); reflexivity.
Qed.
Lemma project l : forall s s' h t, orun dflt user ps s l = Some (s', h, t) ->
  forall i p f0, nth_error ps i = Some p -> nth_error (o_fields s) i = Some f0 ->
  exists f1, nth_error (o_fields s') i = Some f1 /\
    part_run p f0 (own_acts i l) = Some (f1, at_field i h, at_field i t).
Proof.
  induction l as [|x l IH]; intros s s' h t H i p f0 Hp Hf.
  - injection H as <- <- <-. exists f0. auto.
  - cbn [orun] in H. destruct (ostep dflt user ps s x) as [[[s1 h1] t1]|] eqn:St; [|discriminate H].
    destruct (orun dflt user ps s1 l) as [[[s2 h2] t2]|] eqn:Rn; [|discriminate H]. injection H as <- <- <-.
    destruct (ostep_acts _ _ _ _ _ St) as (j & y & F & Own).
    destruct (field_step_own _ _ _ _ _ _ F) as (q & g0 & g1 & h0 & t0 & Hq & Hg & P & Fs & -> & ->).
    change (own_acts i (x :: l)) with (own_acts i ([x] ++ l)). unfold own_acts at 1. rewrite flat_map_app.
    fold (own_acts i [x]). fold (own_acts i l). rewrite Own. rewrite !at_app.
    destruct (Nat.eqb_spec j i) as [->|N].
    + rewrite Hp in Hq. injection Hq as <-. rewrite Hf in Hg. injection Hg as <-.
      destruct (IH _ _ _ _ Rn i p g1 Hp) as (f1 & Hf1 & P1); [rewrite Fs; exact (put_same _ _ _ _ Hf)|].
      exists f1. split; [exact Hf1|]. cbn [app part_run]. rewrite P, P1, !at_same. reflexivity.
    + destruct (IH _ _ _ _ Rn i p f0 Hp) as (f1 & Hf1 & P1); [rewrite Fs, put_other; auto|].
      exists f1. split; [exact Hf1|]. rewrite !at_other by exact N. exact P1.
Qed.
Lemma run_fields l : forall s s' h t, orun dflt user ps s l = Some (s', h, t) ->
  List.length (o_fields s') = List.length (o_fields s) /\
  forall i e, In (i, e) h -> i < List.length ps.
Proof.
  induction l as [|x l IH]; intros s s' h t H.
  - injection H as <- <- <-. split; [reflexivity|]. intros i e [].
  - cbn [orun] in H. destruct (ostep dflt user ps s x) as [[[s1 h1] t1]|] eqn:St; [|discriminate H].
    destruct (orun dflt user ps s1 l) as [[[s2 h2] t2]|] eqn:Rn; [|discriminate H]. injection H as <- <- <-.
    destruct (ostep_acts _ _ _ _ _ St) as (j & y & F & _).
    destruct (field_step_own _ _ _ _ _ _ F) as (q & g0 & g1 & h0 & t0 & Hq & _ & _ & Fs & -> & _).
    destruct (IH _ _ _ _ Rn) as [Ln In2]. rewrite Ln, Fs, put_length. split; [reflexivity|].
    intros i e I. apply in_app_iff in I as [I|I]; [|exact (In2 i e I)].
    apply in_map_iff in I as (z & E & _). injection E as <- _. apply nth_error_Some. congruence.
Qed.
End Run.
