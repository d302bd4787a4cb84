(** C91 from the words of the attributes; why predicates of lazy fields must be left out. *)
From Coq Require Import List Bool String Arith Lia.
From Verif Require Import ProxyTypes ArgsModel CtxModel ArgsSpec TokenSpec ParseInput ParseModel ParseSpec ParseForms GrammarSpec
  RustAst CommonGen StructGen CodegenSpec FieldSpec FieldRun
  WrittenSpec WrittenProofs WrittenNames SignSpec SignProofs SignMethods SignTypes MadeSpec MadeProofs BehaveSpec BehaveModel BehaveProofs.
From Verif Require Import GuardCell ThreadSpec ThreadModel LockedModel ObjectSpec ObjectModel ObjectProofs ObjectParts ObjectRecord ObjectWords
  WeakObjectSpec WeakObjectModel WeakObjectProofs.
Import ListNotations.
Open Scope string_scope.
Open Scope list_scope.

Theorem weak_exact c fo ps dflt user :
  (forall f o, In (f, o) fo -> f_is_skipped f = false) ->
  map (fun x => part_of c (fst x) (snd x)) fo = map Some ps ->
  (forall f o ms k, In (f, o) fo -> field_methods c f = GOk ms -> In k (map m_kind ms) -> works c f k = true) ->
  forall bld l w h t, weak_object_run dflt user ps l = Some (w, h, t) -> (forall i, oracle (bld i) (at_field i t)) ->
  (forall i a b r fl, In (i, HRet a (ORet (AnBool b))) h -> nth_error (roles_of c fo) i = Some r -> v_shape (r_view r) <> Lazy fl) ->
  exists ws, rruns bld dflt (roles_of c fo) (rstart (roles_of c fo)) h ws.
Proof.
  intros Sk Po Wk bld l w h t H O K. destruct (weak_history c fo ps dflt user Sk Po Wk bld l w h t H O) as (h' & ws & S1 & R).
  rewrite <- (seen_exact c fo h h' S1 K) in R. exists ws. exact R.
Qed.

Section Words.
  Variable ft : features.
  Variables (c : sctx) (ss : list (list tok)) (all : list source).
  Hypothesis HS : struct_as ft ss (c_args c).
  Hypothesis HF : Forall2 (read_as ft) all (c_input_fields c).
  Variable its : list (source * facts * field * option nat).
  Hypothesis Told : forall x q f o, In (x, q, f, o) its ->
    read_as ft x f /\ ~ skipped x /\ facts_told ss all x q /\ forall k, method_for ss all x k -> sound_call q k = true.
  Theorem w_weak_object ps bld dflt user l w h t :
    map (fun x => part_of c (fst x) (snd x)) (its_fields its) = map Some ps ->
    weak_object_run dflt user ps l = Some (w, h, t) ->
    (forall g, In g (w_fields w) -> wraced g = false) /\
    ((forall i, oracle (bld i) (at_field i t)) ->
     exists h' ws, Forall2 (seen_as (told_roles its)) h h' /\ rruns bld dflt (told_roles its) (rstart (told_roles its)) h' ws).
  Proof.
    intros P H. rewrite <- (roles_told ft c ss all HS HF its Told).
    assert (Sk : forall f o, In (f, o) (its_fields its) -> f_is_skipped f = false).
    { intros f o I. apply in_map_iff in I as ([[[x q] f'] o'] & E & I). injection E as -> ->.
      destruct (Told x q f o I) as (R & NS & _ & _). rewrite <- (f_skipped ft x f R), not_true_iff_false in NS. exact NS. }
    assert (Wk : forall f o ms k, In (f, o) (its_fields its) -> field_methods c f = GOk ms -> In k (map m_kind ms) -> works c f k = true).
    { intros f o ms k I M K. apply in_map_iff in I as ([[[x q] f'] o'] & E & I). injection E as -> ->.
      destruct (Told x q f o I) as (R & _ & Q & So). apply (w_methods ft c ss all HS HF x f R k ms M) in K.
      exact (works_told ft c ss all HS HF x f R q k ms Q M K (So k K)). }
    split.
    - exact (weak_no_race c _ ps dflt user Sk P Wk l w h t H).
    - intros O. exact (weak_history c _ ps dflt user Sk P Wk bld l w h t H O).
  Qed.
End Words.

(** ** A stale answer *)
Section Stale.
Variable bld : nat -> outcome nat nat.
Variable dflt : nat.
Variable v : FieldSpec.view.
Variable cn : bool.
Hypothesis Lz : v_shape v = Lazy false.
Definition calm (s : wstat) : Prop :=
  match s with
  | WAsked k _ => k = KAccessor \/ k = KPredicate
  | WUsing _ _ => False
  | WDone (ORet (AnBool b)) _ => b = true
  | _ => True
  end.
(** Before the value is there, and after. *)
Definition early (w : cellst * (aid -> wstat)) : Prop :=
  forall a, match snd w a with
            | WAsked k _ => k = KAccessor
            | WUsing _ _ => False
            | WDone (ORet (AnVal _)) _ => c_val (fst w) <> None
            | WDone (ORet (AnBool _)) _ => False
            | _ => True
            end.
Definition late (w : cellst * (aid -> wstat)) : Prop := c_val (fst w) <> None /\ forall a, calm (snd w a).
Lemma accessor_call n c0 :
  match spec_call bld dflt v KAccessor n c0 with
  | Returns an c' => (forall b, an <> AnBool b) /\ c_val c' <> None
  | Panics c' => c_val c0 <> None -> c_val c' <> None
  | _ => True
  end.
Proof.
  assert (Kp : forall d k w c1, c_val (keeping d k w c1) = c_val c1) by (intros [| | |] [|] [|] c1; reflexivity).
  assert (Wa : forall d w r, with_access d w c0 r = r \/ with_access d w c0 r = Panics c0 \/ with_access d w c0 r = Waits c0).
  { intros d w r. destruct d; cbn; auto; match goal with |- context [if ?z then _ else _] => destruct z end; auto. }
  cbn [spec_call]. unfold look. rewrite Lz. destruct (c_val c0) as [x|] eqn:E.
  - match goal with |- context [with_access ?d ?w c0 ?r] => destruct (Wa d w r) as [Q|[Q|Q]]; rewrite Q end; [|congruence|exact I].
    split; [discriminate|]. rewrite Kp, E. discriminate.
  - match goal with |- context [with_access ?d ?w c0 ?r] => destruct (Wa d w r) as [Q|[Q|Q]]; rewrite Q end; [|congruence|exact I].
    destruct (bld (c_builds c0)); [|congruence|congruence]. split; [discriminate|]. rewrite Kp. discriminate.
Qed.
Lemma predicate_call n c0 : spec_call bld dflt v KPredicate n c0 = Returns (AnBool (is_some (c_val c0))) c0.
Proof. cbn. rewrite Lz. reflexivity. Qed.
Lemma early_step w t w' : wstep bld dflt v cn w t w' -> early w ->
  match t with
  | [] => early w'
  | [HCall _ k _] => k = KAccessor -> early w'
  | [HRet _ (ORet (AnVal _))] => late w'
  | _ => True
  end.
Proof.
  intros St E. destruct St as [c x a k n F|c x a h u F U|c x a o g F|c x a k n an c' F S1|c x a k n c' F S1|c x a h F|c x a h y F|c x a h F|c x a k n Cn F];
    pose proof (E a) as Ea; cbn [fst snd] in Ea; rewrite F in Ea; try exact I; try (destruct Ea; fail).
  - intros ->. intros b. cbn. unfold wset. destruct (Nat.eqb b a); [reflexivity|apply E].
  - destruct o as [[z|z|z|z|]| | |]; try exact I. split; [exact Ea|]. intros b. cbn. unfold wset. destruct (Nat.eqb b a).
    + destruct g; exact I.
    + pose proof (E b) as Eb. cbn in Eb. destruct (x b) as [| | | |[[]| | |] ?]; cbn; auto; try exact I; try (left; exact Eb); destruct Eb.
  - subst k. pose proof (accessor_call n c) as A. rewrite S1 in A. destruct A as [A1 A2].
    intros b. cbn. unfold wset. destruct (Nat.eqb b a).
    + destruct an; try exact I; [exact A2|destruct (A1 b0); reflexivity].
    + pose proof (E b) as Eb. cbn in Eb. destruct (x b) as [| | | |[[]| | |] ?]; try exact I; auto.
  - subst k. pose proof (accessor_call n c) as A. rewrite S1 in A.
    intros b. cbn. unfold wset. destruct (Nat.eqb b a); [exact I|].
    pose proof (E b) as Eb. cbn in Eb. destruct (x b) as [| | | |[[]| | |] ?]; try exact I; auto.
Qed.
Lemma late_step w t w' : wstep bld dflt v cn w t w' -> late w ->
  match t with
  | [] => late w'
  | [HCall _ k _] => k = KPredicate -> late w'
  | [HRet _ (ORet (AnBool b))] => b = true
  | _ => True
  end.
Proof.
  intros St [N E]. destruct St as [c x a k n F|c x a h u F U|c x a o g F|c x a k n an c' F S1|c x a k n c' F S1|c x a h F|c x a h y F|c x a h F|c x a k n Cn F];
    pose proof (E a) as Ea; cbn [fst snd] in *; rewrite F in Ea; try exact I; try (destruct Ea; fail).
  - intros ->. split; [exact N|]. intros b. cbn. unfold wset. destruct (Nat.eqb b a); [right; reflexivity|apply E].
  - destruct o as [[z|z|z|z|]| | |]; try exact I. exact Ea.
  - destruct Ea as [-> | ->].
    + pose proof (accessor_call n c) as A. rewrite S1 in A. destruct A as [A1 A2]. split; [exact A2|].
      intros b. cbn. unfold wset. destruct (Nat.eqb b a); [|apply E]. destruct an; try exact I. destruct (A1 b0); reflexivity.
    + rewrite predicate_call in S1. injection S1 as <- <-. split; [exact N|].
      intros b. cbn. unfold wset. destruct (Nat.eqb b a); [|apply E]. cbn. destruct (c_val c); [reflexivity|congruence].
  - destruct Ea as [-> | ->].
    + pose proof (accessor_call n c) as A. rewrite S1 in A. split; [exact (A N)|].
      intros b. cbn. unfold wset. destruct (Nat.eqb b a); [exact I|apply E].
    + rewrite predicate_call in S1. discriminate S1.
Qed.
Lemma early_quiet w t w' : wruns bld dflt v cn w t w' -> t = [] -> early w -> early w'.
Proof.
  induction 1 as [w|w t1 w1 t2 w2 St Rn IH]; intros Q E; [exact E|]. apply app_eq_nil in Q as [-> ->].
  exact (IH eq_refl (early_step _ _ _ St E)).
Qed.
Lemma late_quiet w t w' : wruns bld dflt v cn w t w' -> t = [] -> late w -> late w'.
Proof.
  induction 1 as [w|w t1 w1 t2 w2 St Rn IH]; intros Q E; [exact E|]. apply app_eq_nil in Q as [-> ->].
  exact (IH eq_refl (late_step _ _ _ St E)).
Qed.
Lemma never_stale a n x b m w : ~ wruns bld dflt v cn (wstart None)
  [HCall a KAccessor n; HRet a (ORet (AnVal x)); HCall b KPredicate m; HRet b (ORet (AnBool false))] w.
Proof.
  intros R. assert (E0 : early (wstart None)) by (intros z; exact I).
  destruct (wruns_head _ _ _ _ _ _ _ R _ _ eq_refl) as (w1 & w2 & Q1 & S1 & R1). apply (early_quiet _ _ _ Q1 eq_refl) in E0.
  pose proof (early_step _ _ _ S1 E0 eq_refl) as E1.
  destruct (wruns_head _ _ _ _ _ _ _ R1 _ _ eq_refl) as (w3 & w4 & Q2 & S2 & R2). apply (early_quiet _ _ _ Q2 eq_refl) in E1.
  pose proof (early_step _ _ _ S2 E1) as L. cbn in L.
  destruct (wruns_head _ _ _ _ _ _ _ R2 _ _ eq_refl) as (w5 & w6 & Q3 & S3 & R3). apply (late_quiet _ _ _ Q3 eq_refl) in L.
  pose proof (late_step _ _ _ S3 L eq_refl) as L1.
  destruct (wruns_head _ _ _ _ _ _ _ R3 _ _ eq_refl) as (w7 & w8 & Q4 & S4 & _). apply (late_quiet _ _ _ Q4 eq_refl) in L1.
  pose proof (late_step _ _ _ S4 L1) as D. discriminate D.
Qed.
End Stale.
(** One cell of the record. *)
Lemma one_cell bld dflt roles i r ws h ws' : rruns bld dflt roles ws h ws' -> nth_error roles i = Some r ->
  forall w, nth_error ws i = Some w -> exists w', wruns (bld i) dflt (r_view r) (r_cancellable r) w (at_field i h) w'.
Proof.
  intros H Hr. induction H as [ws|ws t1 ws1 t2 ws2 St Rn IH]; intros w Hw; [eexists; apply wr_nil|].
  destruct St as [ws j r' w0 t w' Hj Hw0 St]. rewrite at_app. destruct (Nat.eq_dec j i) as [E|N].
  - subst j. rewrite Hr in Hj. injection Hj as <-. rewrite Hw in Hw0. injection Hw0 as <-.
    destruct (IH w' (put_same _ _ _ _ Hw)) as (w2 & R). exists w2. rewrite at_same. exact (wr_step _ _ _ _ _ _ _ _ _ St R).
  - rewrite (at_other _ _ _ N). apply IH. rewrite put_other by exact N. exact Hw.
Qed.
Theorem no_stale bld dflt r rest a n x b m ws : v_shape (r_view r) = Lazy false -> r_start r = None ->
  ~ rruns bld dflt (r :: rest) (rstart (r :: rest))
      [(0, HCall a KAccessor n); (0, HRet a (ORet (AnVal x))); (0, HCall b KPredicate m); (0, HRet b (ORet (AnBool false)))] ws.
Proof.
  intros L S1 H. destruct (one_cell _ _ _ 0 r _ _ _ H eq_refl _ eq_refl) as (w & R). rewrite S1 in R.
  exact (never_stale (bld 0) dflt (r_view r) (r_cancellable r) L a n x b m w R).
Qed.
