(** Whole lives of objects on weak memory. *)
From Coq Require Import List Bool String Arith Lia.
From Verif Require Import ProxyTypes ArgsModel CtxModel RustAst RustSem CommonGen StructGen CodegenSpec FieldSpec FieldRun GuardCell
  ThreadSpec ThreadModel LockedModel ObjectSpec ObjectModel ObjectProofs ObjectParts ObjectRecord EndSpec SerdeModel LifeSpec LifeModel LifeProofs LifeRecord
  WeakMem WeakSpec WeakObjectSpec WeakObjectModel WeakObjectParts WeakObjectProofs WeakObjectFresh
  WeakLifeSpec WeakLifeModel WeakLifeProofs.
Import ListNotations.
Open Scope list_scope.

Lemma parts_contents c : forall fs vs ps, map (fun x => part_from c (fst x) (snd x)) (combine fs vs) = map Some ps ->
  exists fo, map (fun x => part_of c (fst x) (snd x)) fo = map Some ps /\
    forall i f o, nth_error fo i = Some (f, o) -> nth_error fs i = Some f.
Proof.
  induction fs as [|f fs IH]; intros [|v vs] [|p ps] H; cbn in H; try discriminate H.
  1-3: exists []; split; [reflexivity|intros [|i] g o E; discriminate E].
  injection H as H1 H2. destruct (IH vs ps H2) as (fo & A & B). apply part_from_iff in H1 as (k & _ & P).
  exists ((f, k) :: fo). split; [cbn; rewrite P, A; reflexivity|]. intros [|i] g o E; cbn in *; [congruence|eauto].
Qed.
Lemma plain_roles (parts : list (FieldSpec.view * bool)) i r : nth_error parts i = Some r ->
  nth_error (roles_now parts (map (fun _ => None) parts)) i = Some (mk_role (fst r) (snd r) None).
Proof.
  unfold roles_now. revert i. induction parts as [|q parts IH]; intros [|i] E; try discriminate E; cbn in *; [congruence|eauto].
Qed.
Lemma plain_roles_inv (parts : list (FieldSpec.view * bool)) i r : nth_error (roles_now parts (map (fun _ => None) parts)) i = Some r ->
  nth_error parts i = Some (r_view r, r_cancellable r).
Proof.
  unfold roles_now. revert i. induction parts as [|[v b] parts IH]; intros [|i] E; try discriminate E; cbn in *; [injection E as <-; reflexivity|eauto].
Qed.

Section Scene.
Variables (dflt : nat) (user : string -> nat) (c : sctx) (fs : list field).
Hypothesis Sk : forall f, In f fs -> f_is_skipped f = false.
Hypothesis Wk : forall f ms k, In f fs -> field_methods c f = GOk ms -> In k (map m_kind ms) -> works c f k = true.
Notation parts := (cells_of c fs).

Lemma found_is K ps (fo : list (field * option nat)) : forall gs ss, List.length gs = List.length ps -> List.length ss = List.length ps ->
  (forall i p g s, nth_error ps i = Some p -> nth_error gs i = Some g -> nth_error ss i = Some s -> exists f o, fmeans c f o p g s) ->
  (forall g m, In g gs -> In m (its_events g) -> In m K) ->
  (forall vs rs, regained K ps gs vs rs -> map (fun x => at_rest (p_store (fst x)) (snd x)) (combine ps ss) = map Some vs /\ existsb (fun b => b) rs = false) /\
  (forall vs, map (fun x => at_rest (p_store (fst x)) (snd x)) (combine ps ss) = map Some vs -> exists rs, regained K ps gs vs rs).
Proof.
  induction ps as [|p ps IH]; intros [|g gs] [|s ss] Lg Ls Fm Kn; try discriminate Lg; try discriminate Ls.
  - split; [intros vs rs H; inversion H; auto|]. intros [|v vs] H; [|discriminate H]. exists []. constructor.
  - destruct (Fm 0 p g s eq_refl eq_refl eq_refl) as (f & o & F).
    destruct (wrest_is c f o p K g s F (fun m I => Kn g m (or_introl eq_refl) I)) as [A B].
    destruct (IH gs ss) as [C D]; [cbn in *; lia|cbn in *; lia|intros i; exact (Fm (S i))|intros h m I; exact (Kn h m (or_intror I))|]. split.
    + intros vs rs H. inversion H as [|? ? ? ? i j v r vs0 rs0 R H0]; subst. apply A in R as [R ->]. destruct (C vs0 rs0 H0) as [E1 E2].
      cbn. rewrite R, E1, E2. auto.
    + intros [|v vs] H; [discriminate H|]. cbn in H. injection H as H1 H2. destruct (B v H1) as (i & j & R). destruct (D vs H2) as (rs & H0).
      exists (false :: rs). econstructor; eauto.
Qed.
Section Run.
Variables (vs : list val) (ps : list part) (l : list wact) (w : wobject) (h : list (nat * hist)) (t : list (nat * event nat nat)).
Hypothesis Pf : map (fun x => part_from c (fst x) (snd x)) (combine fs vs) = map Some ps.
Hypothesis Run : weak_object_run dflt user ps l = Some (w, h, t).
Theorem weak_scene bld who : (forall i, oracle (bld i) (at_field i t)) -> all_over (shadow w) -> incl (took_part l) who ->
  (forall g, In g (w_fields w) -> wraced g = false) /\
  exists s h' t', object_run dflt user ps (plain_acts l) = Some (s, h', t') /\ (forall i, oracle (bld i) (at_field i t')) /\ all_over s /\
    Forall2 (seen_as (roles_now parts (map (fun _ => None) parts))) h h' /\
    (forall vs1 rs, regained (gathered who (w_fields w)) ps (w_fields w) vs1 rs ->
      map (fun x => at_rest (p_store (fst x)) (snd x)) (combine ps (o_fields s)) = map Some vs1 /\ existsb (fun b => b) rs = false) /\
    (forall vs1, map (fun x => at_rest (p_store (fst x)) (snd x)) (combine ps (o_fields s)) = map Some vs1 ->
      exists rs, regained (gathered who (w_fields w)) ps (w_fields w) vs1 rs).
Proof.
  intros O Ov Jo. destruct (parts_contents c fs vs ps Pf) as (fo & Po & Pr).
  assert (Sk' : forall f o, In (f, o) fo -> f_is_skipped f = false).
  { intros f o I. apply In_nth_error in I as (i & E). apply Sk, (nth_error_In _ i), (Pr i f o E). }
  assert (Wk' : forall f o ms k, In (f, o) fo -> field_methods c f = GOk ms -> In k (map m_kind ms) -> works c f k = true).
  { intros f o ms k I. apply In_nth_error in I as (i & E). apply Wk, (nth_error_In _ i), (Pr i f o E). }
  split; [exact (weak_no_race c fo ps dflt user Sk' Po Wk' l w h t Run)|].
  destruct (weak_means c fo ps dflt user Sk' Po Wk' l w h t Run) as (s & h' & t' & R & Hh & Ht & M).
  exists s, h', t'. split; [exact R|]. split.
  { intros i. pose proof (O i) as Oi. unfold oracle in *. rewrite <- (ends_alike _ _ (beside_at _ i _ _ Ht)). exact Oi. }
  split.
  { intros i s1 a E. destruct (nth_error (w_fields w) i) as [g|] eqn:G.
    2:{ rewrite (om_none c fo ps _ _ _ M G) in E. discriminate E. }
    destruct (om_at c fo ps Sk' Po Wk' _ _ _ _ M G) as (f & o & p & s2 & _ & _ & E2 & Fm). rewrite E in E2. injection E2 as <-.
    rewrite <- (fmeans_place _ _ _ _ _ _ a Fm). apply (Ov i). unfold shadow. cbn. apply map_nth_error, G. }
  split.
  { clear - Hh Pr. induction Hh as [|x y h h' A F IH]; constructor; [|exact IH]. destruct A as [e|i r fl a b b' N V]; [constructor|].
    unfold roles_of in N. destruct (nth_error fo i) as [[f o]|] eqn:E.
    - rewrite (map_nth_error _ _ _ E) in N. injection N as <-. cbn in V.
      eapply seen_predicate; [apply plain_roles; exact (map_nth_error (fun f => (view_of c f, is_async c f)) _ _ (Pr i f o E))|exact V].
    - exfalso. apply nth_error_None in E. rewrite <- (map_length (fun x => mk_role (view_of c (fst x)) (is_async c (fst x)) (snd x))) in E.
      apply nth_error_None in E. congruence. }
  apply (found_is (gathered who (w_fields w)) ps fo (w_fields w) (o_fields s) (om_wlen _ _ _ _ _ M) (om_len _ _ _ _ _ M)).
  - intros i p g s1 Ep Eg Es. destruct (nth_error fo i) as [[f o]|] eqn:E; [exists f, o; exact (om_field _ _ _ _ _ M i f o p g s1 E Ep Eg Es)|].
    exfalso. apply nth_error_None in E. rewrite (same_number c fo ps Po) in E. apply nth_error_None in E. congruence.
  - exact (joined_know dflt user ps l w h t who Run Jo).
Qed.
End Run.

(** Each such life is one on memory as in LifeModel.v. *)
Theorem weak_strong vs scenes vs' r : wlives dflt user c fs vs scenes vs' r ->
  r = false /\ exists scenes', Forall2 (scene_as parts) scenes scenes' /\ lives dflt user c fs vs scenes' vs'.
Proof.
  induction 1 as [vs|vs bld i l os f ms v iu rest vs' r Ef Ew M Of R G L (Er & sc & A & B)|vs bld h ps l w t who vs1 rs rest vs' r Ps R O Ov Jo Rg L (Er & sc & A & B)].
  - split; [reflexivity|]. exists []. split; constructor.
  - split; [exact Er|]. exists (Alone bld i l os :: sc). split; [constructor; [apply sc_same|exact A]|]. eapply lv_alone; eauto.
  - destruct (weak_scene vs ps l w h t Ps R bld who O Ov Jo) as (Ra & s & h' & t' & R' & O' & Ov' & Hh & Fd & _).
    destruct (Fd vs1 rs Rg) as [Re Rr]. split.
    + rewrite Rr, Er. assert (E : existsb wraced (w_fields w) = false); [|rewrite E; reflexivity].
      destruct (existsb wraced (w_fields w)) eqn:E; [|reflexivity]. apply existsb_exists in E as (g & I & E). rewrite (Ra g I) in E. discriminate E.
    + exists (Together bld h' :: sc). split; [constructor; [apply sc_together, Hh|exact A]|]. eapply lv_together; eauto.
Qed.
Lemma sense_as scenes scenes' : Forall2 (scene_as parts) scenes scenes' -> Forall (makes_sense dflt parts) scenes -> Forall (makes_sense dflt parts) scenes'.
Proof.
  induction 1 as [|x y xs ys A F IH]; intros H; inversion H; subst; constructor; auto. destruct A; [assumption|exact I].
Qed.
Lemma same_scenes scenes scenes' : Forall2 (scene_as parts) scenes scenes' -> Forall (unasked parts) scenes -> scenes = scenes'.
Proof.
  induction 1 as [|x y xs ys A F IH]; intros H; [reflexivity|]. inversion H as [|? ? U U']; subst. f_equal; [|auto].
  destruct A as [s|bld h h' Hh]; [reflexivity|]. f_equal. cbn in U. clear - Hh U. induction Hh as [|x y h h' A F IH]; [reflexivity|]. f_equal.
  - destruct A as [e|i r fl a b b' N V]; [reflexivity|]. destruct (U i a b (r_view r, r_cancellable r) fl (or_introl eq_refl) (plain_roles_inv _ _ _ N) V).
  - apply IH. intros i a b r fl I. exact (U i a b r fl (or_intror I)).
Qed.
Theorem weak_life vs scenes vs' r ks : wlives dflt user c fs vs scenes vs' r -> stores c fs ks vs -> Forall (makes_sense dflt parts) scenes ->
  r = false /\ exists scenes' ks', Forall2 (scene_as parts) scenes scenes' /\ tale dflt parts ks scenes' ks' /\ stores c fs ks' vs'.
Proof.
  intros L St Se. destruct (weak_strong _ _ _ _ L) as (E & sc & A & B). split; [exact E|].
  destruct (whole_life dflt user c fs Sk Wk vs sc vs' B ks St (sense_as _ _ A Se)) as (ks' & T & St'). exists sc, ks'. auto.
Qed.
Theorem weak_life_exact vs scenes vs' r ks : wlives dflt user c fs vs scenes vs' r -> stores c fs ks vs -> Forall (makes_sense dflt parts) scenes ->
  Forall (unasked parts) scenes -> exists ks', tale dflt parts ks scenes ks' /\ stores c fs ks' vs'.
Proof.
  intros L St Se U. destruct (weak_life _ _ _ _ _ L St Se) as (_ & sc & ks' & A & T & St'). rewrite (same_scenes _ _ A U). eauto.
Qed.
(** The owner finds something, and whatever the loads it is the same. *)
Theorem found_again ks vs ps l w h t bld who : stores c fs ks vs -> map (fun x => part_from c (fst x) (snd x)) (combine fs vs) = map Some ps ->
  weak_object_run dflt user ps l = Some (w, h, t) -> (forall i, oracle (bld i) (at_field i t)) -> all_over (shadow w) -> incl (took_part l) who ->
  exists vs1 rs, regained (gathered who (w_fields w)) ps (w_fields w) vs1 rs /\
    forall vs2 rs2, regained (gathered who (w_fields w)) ps (w_fields w) vs2 rs2 -> vs2 = vs1 /\ forall r, In r rs2 -> r = false.
Proof.
  intros St Pf R O Ov Jo. destruct (weak_scene vs ps l w h t Pf R bld who O Ov Jo) as (_ & s & h' & t' & R' & O' & Ov' & _ & Fd & Ex).
  destruct (stores_nth c _ _ _ St) as (Lk & Lv & Nt).
  destruct (object_left c (combine fs ks) ps bld dflt user) with (l := plain_acts l) (s := s) (h := h') (t := t') as (ws & ks1 & vs1 & _ & _ & Re & _); auto.
  { intros f o I. apply in_combine_l in I. auto. }
  { exact (stores_parts c _ _ _ _ St Pf). }
  { intros f o ms k I. apply in_combine_l in I. eauto. }
  destruct (Ex vs1 Re) as (rs & Rg). exists vs1, rs. split; [exact Rg|]. intros vs2 rs2 Rg2. destruct (Fd vs2 rs2 Rg2) as [Re2 Rr]. split.
  - rewrite Re in Re2. clear - Re2. revert vs1 Re2. induction vs2 as [|v vs2 IH]; intros [|u vs1] E; try discriminate E; [reflexivity|].
    injection E as -> E. f_equal. auto.
  - intros r I. destruct r; [|reflexivity]. assert (X : existsb (fun b => b) rs2 = true) by (apply existsb_exists; exists true; auto). congruence.
Qed.
End Scene.
