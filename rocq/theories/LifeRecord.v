(** Whole lives of objects. *)
From Coq Require Import List Bool String Arith Lia.
From Verif Require Import ProxyTypes ArgsModel CtxModel RustAst RustSem CommonGen StructGen CodegenSpec FieldSpec FieldRun FieldSeq FieldStruct GuardCell
  ThreadSpec ThreadModel LockedModel ObjectSpec ObjectModel ObjectProofs ObjectParts ObjectRecord EndSpec SerdeModel LifeSpec LifeModel LifeProofs.
Import ListNotations.
Open Scope list_scope.

(** ** Histories of the cells that end somewhere *)
Section Merge.
Variable bld : nat -> nat -> outcome nat nat.
Variable dflt : nat.
Variable roles : list role.
Notation world := (cellst * (aid -> wstat))%type.
Notation steps i r := (wruns (bld i) dflt (r_view r) (r_cancellable r)).

Lemma put_list {A} (ts : list A) : forall ws : list A, List.length ws = List.length ts ->
  (forall i, i < List.length ts -> nth_error ws i = nth_error ts i) -> ws = ts.
Proof.
  induction ts as [|t ts IH]; intros [|w ws] L H; try discriminate L; [reflexivity|].
  f_equal.
  - specialize (H 0). cbn in H. assert (Q : Some w = Some t) by (apply H; lia). congruence.
  - apply IH; [cbn in L; lia|]. intros i Li. apply (H (S i)). cbn. lia.
Qed.
(** Each of the first [n] cells goes where it is to go. *)
Lemma settle (ts : list world) : List.length ts = List.length roles -> forall n ws, n <= List.length roles ->
  List.length ws = List.length roles ->
  (forall i r w t, nth_error roles i = Some r -> nth_error ws i = Some w -> nth_error ts i = Some t -> steps i r w [] t) ->
  exists ws', rruns bld dflt roles ws [] ws' /\ List.length ws' = List.length roles /\
    (forall i, i < n -> nth_error ws' i = nth_error ts i) /\ (forall i, n <= i -> nth_error ws' i = nth_error ws i).
Proof.
  intros Lt. induction n as [|n IH]; intros ws Ln Lw K.
  - exists ws. split; [apply rr_nil|]. repeat split; auto. intros i Li. lia.
  - destruct (IH ws ltac:(lia) Lw K) as (w1 & R1 & L1 & A & B).
    destruct (nth_error roles n) as [r|] eqn:Hr; [|apply nth_error_None in Hr; lia].
    destruct (nth_error ws n) as [w|] eqn:Hw; [|apply nth_error_None in Hw; lia].
    destruct (nth_error ts n) as [t|] eqn:Ht; [|apply nth_error_None in Ht; lia].
    assert (Hw1 : nth_error w1 n = Some w) by (rewrite B; auto).
    destruct (quiet_lift bld dflt roles n r w [] t (K n r w t Hr Hw Ht) eq_refl Hr w1 Hw1) as (w2 & R2 & ->).
    exists (put w1 n t). split; [exact (rruns_app _ _ _ _ _ _ R1 _ _ R2)|]. split; [rewrite put_length; exact L1|]. split.
    + intros i Li. destruct (Nat.eq_dec n i) as [<-|N]; [rewrite (put_same _ _ _ _ Hw1); auto|]. rewrite put_other by exact N. apply A. lia.
    + intros i Li. rewrite put_other by lia. apply B. lia.
Qed.
Theorem merge_to (ts : list world) h : List.length ts = List.length roles ->
  (forall i e, In (i, e) h -> i < List.length roles) -> forall ws,
  List.length ws = List.length roles ->
  (forall i r w t, nth_error roles i = Some r -> nth_error ws i = Some w -> nth_error ts i = Some t -> steps i r w (at_field i h) t) ->
  rruns bld dflt roles ws h ts.
Proof.
  intros Lt. induction h as [|[i e] h IH]; intros In ws Len K.
  - destruct (settle ts Lt (List.length roles) ws (le_n _) Len K) as (ws' & R & L & A & _).
    rewrite (put_list ts ws') in R; [exact R|congruence|]. intros i Li. apply A. lia.
  - assert (Li : i < List.length roles) by (apply (In i e); left; reflexivity).
    destruct (nth_error roles i) as [r|] eqn:Hr; [|apply nth_error_None in Hr; lia].
    destruct (nth_error ws i) as [w|] eqn:Hw; [|apply nth_error_None in Hw; lia].
    destruct (nth_error ts i) as [t|] eqn:Ht; [|apply nth_error_None in Ht; lia].
    pose proof (K i r w t Hr Hw Ht) as Rn.
    assert (E : at_field i ((i, e) :: h) = e :: at_field i h).
    { unfold at_field. cbn [filter fst]. rewrite Nat.eqb_refl. reflexivity. }
    destruct (wruns_head _ _ _ _ _ _ _ Rn _ _ E) as (w1 & w2 & A & B & C).
    destruct (quiet_lift bld dflt roles i r w [] w1 A eq_refl Hr ws Hw) as (ws1 & A' & ->).
    pose proof (put_same ws i w1 w Hw) as Hw1.
    pose proof (r_step bld dflt roles (put ws i w1) i r w1 [e] w2 Hr Hw1 B) as B'.
    refine (rruns_app _ _ _ _ _ _ A' _ _ (rr_step _ _ _ _ _ _ _ _ B' (IH (fun j z I => In j z (or_intror I)) (put (put ws i w1) i w2) _ _))).
    + rewrite !put_length. exact Len.
    + intros j q z y Hq Hz Hy. destruct (Nat.eq_dec i j) as [<-|N].
      * rewrite (put_same _ i w2 w1 Hw1) in Hz. injection Hz as <-. rewrite Hr in Hq. injection Hq as <-. rewrite Ht in Hy. injection Hy as <-. exact C.
      * rewrite !(put_other _ i j) in Hz by exact N. pose proof (K j q z y Hq Hz Hy) as Z.
        unfold at_field in Z. cbn [filter fst] in Z. rewrite (proj2 (Nat.eqb_neq i j) N) in Z. exact Z.
Qed.
End Merge.

(** A list of things chosen for each position. *)
Lemma choose {A} (P : nat -> A -> Prop) n : (forall i, i < n -> exists x, P i x) ->
  exists l, List.length l = n /\ forall i x, nth_error l i = Some x -> P i x.
Proof.
  induction n as [|n IH]; intros H.
  - exists []. split; [reflexivity|]. intros [|i] x E; discriminate E.
  - destruct IH as (l & L & K); [intros i Li; apply H; lia|]. destruct (H n ltac:(lia)) as (x & X).
    exists (l ++ [x]). split; [rewrite app_length; cbn; lia|]. intros i y E.
    destruct (lt_dec i (List.length l)) as [Li|Li].
    + rewrite nth_error_app1 in E by exact Li. exact (K i y E).
    + rewrite nth_error_app2 in E by lia. destruct (i - List.length l) as [|m] eqn:D; [|destruct m; discriminate E].
      injection E as <-. replace i with n by lia. exact X.
Qed.

Lemma nth_combine {A B} (l : list A) : forall (k : list B) i x y, nth_error l i = Some x -> nth_error k i = Some y ->
  nth_error (combine l k) i = Some (x, y).
Proof.
  induction l as [|a l IH]; intros [|b k] [|i] x y E1 E2; try discriminate; cbn in *; [congruence|auto].
Qed.

(** ** A shared scene *)
Section Scene.
Variables (c : sctx) (fo : list (field * option nat)) (ps : list part).
Variable bld : nat -> nat -> outcome nat nat.
Variables (dflt : nat) (user : string -> nat).
Hypothesis Sk : forall f o, In (f, o) fo -> f_is_skipped f = false.
Hypothesis Po : map (fun x => part_of c (fst x) (snd x)) fo = map Some ps.
Hypothesis Wk : forall f o ms k, In (f, o) fo -> field_methods c f = GOk ms -> In k (map m_kind ms) -> works c f k = true.

Theorem object_left l s h t : object_run dflt user ps l = Some (s, h, t) -> (forall i, oracle (bld i) (at_field i t)) -> all_over s ->
  exists ws ks vs, rruns bld dflt (roles_of c fo) (rstart (roles_of c fo)) h ws /\ Forall2 left_with ws ks /\
    map (fun x => at_rest (p_store (fst x)) (snd x)) (combine ps (o_fields s)) = map Some vs /\ stores c (map fst fo) ks vs.
Proof.
  intros H O Ov. unfold object_run in H. destruct (run_fields dflt user ps l _ _ _ _ H) as [Ln Bound].
  unfold ostart in Ln. cbn [o_fields] in Ln. rewrite map_length in Ln.
  pose proof (same_number c fo ps Po) as Sn.
  assert (Len : List.length (roles_of c fo) = List.length ps) by (unfold roles_of; rewrite map_length; exact Sn).
  destruct (choose (fun i x => exists f o p fs, nth_error fo i = Some (f, o) /\ nth_error ps i = Some p /\ nth_error (o_fields s) i = Some fs /\
      wruns (bld i) dflt (view_of c f) (is_async c f) (wstart o) (at_field i h) (fst (fst x)) /\ left_with (fst (fst x)) (snd (fst x)) /\
      at_rest (p_store p) fs = Some (snd x) /\ keeps c f (snd (fst x)) (snd x)) (List.length fo)) as (xs & Lx & Kx).
  { intros i Li. destruct (nth_error fo i) as [[f o]|] eqn:E; [|apply nth_error_None in E; lia].
    destruct (its_part c fo ps Sk Po Wk i f o E) as (p & Hp & P & S1 & W).
    destruct (project dflt user ps l _ _ _ _ H i p (part_start p) Hp) as (f1 & Hf & R).
    { unfold ostart. cbn. apply map_nth_error, Hp. }
    destruct (part_left c f (bld i) dflt user o p S1 P W _ _ _ _ R (O i)) as (w & k & v & A & B & C & D).
    { intros a. exact (Ov i f1 a Hf). }
    exists (w, k, v). exists f, o, p, f1. cbn. auto 10. }
  exists (map (fun x => fst (fst x)) xs), (map (fun x => snd (fst x)) xs), (map snd xs). split; [|split; [|split]].
  - apply merge_to.
    + rewrite map_length. lia.
    + rewrite Len. exact Bound.
    + unfold rstart. apply map_length.
    + intros i r w y Hr Hw Hy. destruct (nth_error xs i) as [x|] eqn:Ex.
      2:{ apply nth_error_None in Ex. rewrite <- (map_length (fun x => fst (fst x))) in Ex. apply nth_error_None in Ex. congruence. }
      rewrite (map_nth_error _ _ _ Ex) in Hy. injection Hy as <-.
      destruct (Kx i x Ex) as (f & o & p & fs & E & _ & _ & W & _).
      unfold roles_of in Hr. rewrite (map_nth_error _ _ _ E) in Hr. injection Hr as <-.
      unfold rstart, roles_of in Hw. rewrite map_map in Hw. rewrite (map_nth_error _ _ _ E) in Hw. injection Hw as <-. exact W.
  - clear Lx. induction xs as [|x xs IH]; [constructor|]. cbn. constructor.
    + destruct (Kx 0 x eq_refl) as (f & o & p & fs & _ & _ & _ & _ & L1 & _). exact L1.
    + clear IH. assert (G : forall i y, nth_error xs i = Some y -> left_with (fst (fst y)) (snd (fst y))).
      { intros i y E. destruct (Kx (S i) y E) as (f & o & p & fs & _ & _ & _ & _ & L1 & _). exact L1. }
      clear Kx. induction xs as [|z xs IH]; [constructor|]. cbn. constructor; [exact (G 0 z eq_refl)|]. apply IH. intros i y E. exact (G (S i) y E).
  - apply put_list.
    + rewrite !map_length, combine_length. lia.
    + intros i Li. rewrite !map_length in Li. destruct (nth_error xs i) as [x|] eqn:Ex; [|apply nth_error_None in Ex; lia].
      destruct (Kx i x Ex) as (f & o & p & fs & _ & Ep & Ef & _ & _ & Re & _).
      rewrite (map_nth_error _ _ _ (map_nth_error snd _ _ Ex)).
      rewrite (map_nth_error (fun x => at_rest (p_store (fst x)) (snd x)) i (combine ps (o_fields s)) (d := (p, fs))); [cbn; rewrite Re; reflexivity|].
      apply nth_combine; assumption.
  - assert (G : forall i x, nth_error xs i = Some x -> exists fk, nth_error fo i = Some fk /\ keeps c (fst fk) (snd (fst x)) (snd x)).
    { intros i x E. destruct (Kx i x E) as (f & o & p & fs & Ef & _ & _ & _ & _ & _ & Ke). exists (f, o). auto. }
    clear - G Lx. revert xs G Lx. induction fo as [|[f o] l0 IH]; intros [|x xs] G Lx; try discriminate Lx; [exact I|]. cbn. split.
    + destruct (G 0 x eq_refl) as (fk & E & Ke). injection E as <-. exact Ke.
    + apply IH; [|cbn in Lx; lia]. intros i y E. exact (G (S i) y E).
Qed.
End Scene.

(** ** Lives *)
Section Lives.
Variables (dflt : nat) (user : string -> nat) (c : sctx) (fs : list field).
Hypothesis Sk : forall f, In f fs -> f_is_skipped f = false.
Hypothesis Wk : forall f ms k, In f fs -> field_methods c f = GOk ms -> In k (map m_kind ms) -> works c f k = true.
Definition cells_of : list (view * bool) := map (fun f => (view_of c f, is_async c f)) fs.

Lemma stores_nth : forall l ks vs, stores c l ks vs -> List.length ks = List.length l /\ List.length vs = List.length l /\
  forall i f k w, nth_error l i = Some f -> nth_error ks i = Some k -> nth_error vs i = Some w -> keeps c f k w.
Proof.
  induction l as [|f l IH]; intros [|k ks] [|w vs] H; try destruct H.
  - repeat split. intros [|i] f k w E; discriminate E.
  - destruct (IH ks vs H0) as (A & B & C). cbn. repeat split; try lia. intros [|i] g j u E1 E2 E3; cbn in *.
    + injection E1 as <-. injection E2 as <-. injection E3 as <-. exact H.
    + exact (C i g j u E1 E2 E3).
Qed.
Lemma stores_put : forall l ks vs, stores c l ks vs -> forall i f k w, nth_error l i = Some f -> keeps c f k w -> stores c l (put ks i k) (put vs i w).
Proof.
  induction l as [|g l IH]; intros [|k0 ks] [|w0 vs] H [|i] f k w E Ke; try destruct H; try discriminate E; cbn in *.
  - injection E as ->. auto.
  - split; [assumption|]. exact (IH ks vs H0 i f k w E Ke).
Qed.
Lemma stores_parts : forall l ks vs ps, stores c l ks vs -> map (fun x => part_from c (fst x) (snd x)) (combine l vs) = map Some ps ->
  map (fun x => part_of c (fst x) (snd x)) (combine l ks) = map Some ps.
Proof.
  induction l as [|f l IH]; intros [|k ks] [|w vs] ps H E; try destruct H; cbn in *; [exact E|].
  destruct ps as [|p ps]; [discriminate E|]. injection E as E1 E2. rewrite (IH ks vs ps H0 E2). cbn. f_equal.
  apply part_from_iff in E1 as (k' & (t' & T' & R') & P). destruct H as (t & T & R). rewrite T in T'. injection T' as <-.
  apply rep_content in R. apply rep_content in R'. congruence.
Qed.
Lemma roles_same : forall l ks, List.length ks = List.length l ->
  roles_of c (combine l ks) = roles_now (map (fun f => (view_of c f, is_async c f)) l) ks.
Proof.
  induction l as [|f l IH]; intros [|k ks] H; try discriminate H; [reflexivity|].
  unfold roles_of, roles_now in *. cbn. f_equal. apply IH. cbn in H. lia.
Qed.
Lemma combine_fst {A B} (l : list A) : forall k : list B, List.length k = List.length l -> map fst (combine l k) = l.
Proof. induction l as [|x l IH]; intros [|y k] H; try discriminate H; [reflexivity|]. cbn. f_equal. apply IH. cbn in H. lia. Qed.
Lemma offered_works f ms l : In f fs -> field_methods c f = GOk ms -> only_calls (offered ms) l = true -> only_calls (works c f) l = true.
Proof.
  intros I M. unfold only_calls. rewrite !forallb_forall. intros H a Ia. specialize (H a Ia). destruct a as [k n u|i|i x|i]; try reflexivity.
  unfold offered in H. destruct (find_method k ms) as [m|] eqn:F; [|discriminate H].
  apply find_some in F as [Im E]. apply (Wk f ms k I M). apply in_map_iff. exists m. split; [|exact Im].
  destruct (m_kind m), k; try discriminate E; reflexivity.
Qed.
Theorem whole_life vs scenes vs' : lives dflt user c fs vs scenes vs' -> forall ks, stores c fs ks vs ->
  Forall (makes_sense dflt cells_of) scenes ->
  exists ks', tale dflt cells_of ks scenes ks' /\ stores c fs ks' vs'.
Proof.
  induction 1 as [vs|vs bld i l os f ms w iu rest vs' Ef Ew M Of R G L IH|vs bld h ps l s t vs1 rest vs' Ps R O Ov Re L IH]; intros ks St Se.
  - exists ks. split; [apply tl_end|exact St].
  - inversion Se as [|? ? S1 S2]; subst. destruct (stores_nth _ _ _ St) as (Lk & Lv & Nt).
    destruct (nth_error ks i) as [k|] eqn:Ek.
    2:{ apply nth_error_None in Ek. assert (i < List.length fs) by (apply nth_error_Some; congruence). lia. }
    destruct (Nt i f k w Ef Ek Ew) as (ty & T & Rp). pose proof (nth_error_In _ _ Ef) as If.
    assert (Er : nth_error cells_of i = Some (view_of c f, is_async c f)) by (exact (map_nth_error (fun f => (view_of c f, is_async c f)) _ _ Ef)).
    pose proof (Sk f If) as Sf. unfold f_is_skipped in Sf.
    assert (Hc : has_content (view_of c f) k = true).
    { unfold has_content. destruct (v_shape (view_of c f)) eqn:V; try reflexivity.
      pose proof (FieldSeq.content_ok _ _ (field_fits c f ty Sf T) (mk_st w 0 false 0) k Rp V) as N. destruct k; [reflexivity|congruence]. }
    pose proof (S1 _ k Er Hc) as Sn. cbn [fst] in Sn.
    destruct (spec_run bld dflt (view_of c f) l (mk_ust k [] 0)) as [[os' u']|] eqn:Sp; [|congruence].
    destruct (field_runs bld dflt user true c f ty ms Sf T M (fun _ => eq_refl) l k w 0 os' u' (offered_works f ms l If M Of) Rp Sp) as (iu' & R' & Si).
    rewrite R in R'. injection R' as <- <-. destruct u' as [k' gs b'].
    destruct Si as [(A1 & A2 & A3 & A4) A5 A6 A7 A8 A9]. cbn in *.
    destruct (IH (put ks i k')) as (ks' & Ta & St').
    { exact (stores_put _ _ _ St i f k' _ Ef (ex_intro _ ty (conj T A1))). }
    { exact S2. }
    exists ks'. split; [|exact St']. eapply tl_alone; [exact Er|exact Ek| |exact Ta]. cbn [fst]. rewrite Sp.
    rewrite G in A5. destruct gs; [reflexivity|discriminate A5].
  - inversion Se as [|? ? S1 S2]; subst. destruct (stores_nth _ _ _ St) as (Lk & Lv & Nt).
    pose proof (stores_parts _ _ _ _ St Ps) as Po.
    destruct (object_left c (combine fs ks) ps bld dflt user) with (l := l) (s := s) (h := h) (t := t) as (ws & ks1 & vs2 & Rr & Lf & Re2 & St2); auto.
    { intros f o I. apply in_combine_l in I. auto. }
    { intros f o ms k I. apply in_combine_l in I. eauto. }
    rewrite Re in Re2. assert (vs1 = vs2) as <-.
    { clear - Re2. revert vs2 Re2. induction vs1 as [|v vs1 IH]; intros [|y vs2] E; try discriminate E; [reflexivity|]. injection E as -> E. f_equal. auto. }
    rewrite combine_fst in St2 by exact Lk. rewrite roles_same in Rr by exact Lk.
    destruct (IH ks1 St2 S2) as (ks' & Ta & St'). exists ks'. split; [|exact St']. eapply tl_together; [exact Rr|exact Lf|exact Ta].
Qed.
(** What the owner may do is done, and scenes can be shared. *)
Theorem alone_lives ks vs bld i f ms l os k k' b : stores c fs ks vs -> nth_error fs i = Some f -> nth_error ks i = Some k ->
  field_methods c f = GOk ms -> only_calls (offered ms) l = true ->
  spec_run bld dflt (view_of c f) l (mk_ust k [] 0) = Some (os, mk_ust k' [] b) ->
  exists vs', lives dflt user c fs vs [Alone bld i l os] vs' /\ stores c fs (put ks i k') vs'.
Proof.
  intros St Ef Ek M Of Sp. destruct (stores_nth _ _ _ St) as (Lk & Lv & Nt). pose proof (nth_error_In _ _ Ef) as If.
  destruct (nth_error vs i) as [w|] eqn:Ew.
  2:{ apply nth_error_None in Ew. assert (i < List.length fs) by (apply nth_error_Some; congruence). lia. }
  destruct (Nt i f k w Ef Ek Ew) as (ty & T & Rp). pose proof (Sk f If) as Sf. unfold f_is_skipped in Sf.
  destruct (field_runs bld dflt user true c f ty ms Sf T M (fun _ => eq_refl) l k w 0 os _ (offered_works f ms l If M Of) Rp Sp) as (iu & R & Si).
  destruct Si as [(A1 & A2 & A3 & A4) A5 A6 A7 A8 A9]. cbn in *.
  exists (put vs i (fld (i_st iu))). split.
  - eapply lv_alone; [exact Ef|exact Ew|exact M|exact Of|exact R| |apply lv_end]. destruct (i_guards iu); [reflexivity|discriminate A5].
  - exact (stores_put _ _ _ St i f k' _ Ef (ex_intro _ ty (conj T A1))).
Qed.
End Lives.
