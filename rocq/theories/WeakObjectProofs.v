(** A shared object on weak memory is answered for by ObjectModel.v. *)
From Coq Require Import List Bool String Arith Lia.
From Verif Require Import ProxyTypes ArgsModel CtxModel RustAst CommonGen StructGen FieldSpec FieldRun GuardCell
  ThreadSpec ThreadModel LockedModel ObjectSpec ObjectModel ObjectProofs ObjectParts ObjectRecord
  WeakSpec WeakObjectSpec WeakObjectModel WeakObjectThreads WeakObjectParts.
Import ListNotations.
Open Scope list_scope.

Lemma ends_alike t t' : Forall2 (@WeakSpec.alike nat nat) t t' -> ends t = ends t'.
Proof.
  induction 1 as [|e e' t t' A F IH]; [reflexivity|]. unfold ends in *. cbn. rewrite IH. destruct A; reflexivity.
Qed.
(** The same in the same field. *)
Definition beside {A} (R : A -> A -> Prop) (x y : nat * A) : Prop := fst x = fst y /\ R (snd x) (snd y).
Lemma beside_map {A} (R : A -> A -> Prop) i t t' : Forall2 R t t' -> Forall2 (beside R) (map (pair i) t) (map (pair i) t').
Proof. induction 1; constructor; [split; [reflexivity|assumption]|assumption]. Qed.
Lemma beside_at {A} (R : A -> A -> Prop) i t t' : Forall2 (beside R) t t' -> Forall2 R (at_field i t) (at_field i t').
Proof.
  unfold at_field. induction 1 as [|[j x] [k y] t t' [E A1] F IH]; [constructor|]. cbn [fst snd filter] in *. subst k.
  destruct (Nat.eqb j i); [constructor|]; assumption.
Qed.

Section Object.
Variables (c : sctx) (fo : list (field * option nat)) (ps : list part).
Variables (dflt : nat) (user : string -> nat).
Hypothesis Sk : forall f o, In (f, o) fo -> f_is_skipped f = false.
Hypothesis Po : map (fun x => part_of c (fst x) (snd x)) fo = map Some ps.
Hypothesis Wk : forall f o ms k, In (f, o) fo -> field_methods c f = GOk ms -> In k (map m_kind ms) -> works c f k = true.
Notation roles := (roles_of c fo).
Notation part_at := (its_part c fo ps Sk Po Wk).

Record omeans (w : wobject) (s : object) : Prop := {
  om_wlen : List.length (w_fields w) = List.length ps;
  om_len : List.length (o_fields s) = List.length ps;
  om_inner : w_inner w = o_inner s;
  om_field : forall i f o p g s1, nth_error fo i = Some (f, o) -> nth_error ps i = Some p ->
    nth_error (w_fields w) i = Some g -> nth_error (o_fields s) i = Some s1 -> fmeans c f o p g s1
}.
Lemma om_at w s i g : omeans w s -> nth_error (w_fields w) i = Some g ->
  exists f o p s1, nth_error fo i = Some (f, o) /\ nth_error ps i = Some p /\ nth_error (o_fields s) i = Some s1 /\ fmeans c f o p g s1.
Proof.
  intros M H. assert (L : i < List.length ps) by (rewrite <- (om_wlen _ _ M); apply nth_error_Some; congruence).
  destruct (nth_error fo i) as [[f o]|] eqn:E; [|apply nth_error_None in E; rewrite (same_number c fo ps Po) in E; lia].
  destruct (part_at i f o E) as (p & Hp & _).
  destruct (nth_error (o_fields s) i) as [s1|] eqn:F; [|apply nth_error_None in F; rewrite (om_len _ _ M) in F; lia].
  exists f, o, p, s1. split; [reflexivity|]. split; [exact Hp|]. split; [reflexivity|]. exact (om_field _ _ M i f o p g s1 E Hp H F).
Qed.
Lemma om_none w s i : omeans w s -> nth_error (w_fields w) i = None -> nth_error (o_fields s) i = None.
Proof. intros M H. apply nth_error_None. apply nth_error_None in H. rewrite (om_len _ _ M), <- (om_wlen _ _ M). exact H. Qed.
Lemma om_acting w s x : omeans w s -> acting (map bare (w_fields w)) x = acting (o_fields s) x.
Proof.
  intros M. unfold acting. destruct (nth_error (w_fields w) (fst x)) as [g|] eqn:G.
  - rewrite (map_nth_error bare _ _ G). destruct (om_at _ _ _ _ M G) as (f & o & p & s1 & _ & _ & F & Fm). rewrite F.
    rewrite (fmeans_place _ _ _ _ _ _ _ Fm). reflexivity.
  - rewrite (om_none _ _ _ M G).
    assert (N : nth_error (map bare (w_fields w)) (fst x) = None) by (apply nth_error_None; rewrite map_length; apply nth_error_None, G).
    rewrite N. reflexivity.
Qed.
Lemma om_inside w s x : omeans w s -> inside (shadow w) x = inside s x.
Proof.
  intros M. unfold inside, shadow. cbn [o_inner o_fields]. rewrite (om_inner _ _ M). clear - M Sk Po Wk.
  generalize (o_inner s). intros l. induction l as [|e l IH]; [reflexivity|]. cbn. rewrite IH, (om_acting _ _ _ M). reflexivity.
Qed.
Lemma om_held w s i y : omeans w s -> held (shadow w) i y = held s i y.
Proof. intros M. destruct y; cbn; try reflexivity; apply om_inside, M. Qed.
Lemma om_free w s i b : omeans w s -> free_to_call ps (shadow w) i b = free_to_call ps s i b.
Proof.
  intros M. unfold free_to_call. destruct (nth_error ps i) as [p|]; [|reflexivity].
  rewrite (om_inside _ _ _ M). reflexivity.
Qed.
Lemma om_building w s i b : omeans w s -> building dflt user ps (shadow w) i b = true -> building dflt user ps s i b = true.
Proof.
  intros M. unfold building, field_step, shadow. cbn [o_fields]. destruct (nth_error ps i) as [p|] eqn:P; [|discriminate].
  destruct (nth_error (map bare (w_fields w)) i) as [g0|] eqn:G0; [|discriminate].
  destruct (nth_error (w_fields w) i) as [g|] eqn:G.
  2:{ exfalso. apply nth_error_None in G. rewrite <- (map_length bare) in G. apply nth_error_None in G. congruence. }
  rewrite (map_nth_error bare _ _ G) in G0. injection G0 as <-.
  destruct (om_at _ _ _ _ M G) as (f & o & p' & s1 & _ & P' & F & Fm). rewrite F. rewrite P in P'. injection P' as <-. intros H.
  assert (N : part_step dflt user p (bare g) (MBuilt b BPanic) <> None) by (destruct (part_step dflt user p (bare g) (MBuilt b BPanic)); congruence).
  apply (fmeans_built _ _ _ _ _ _ _ _ _ _ Fm) in N. destruct (part_step dflt user p s1 (MBuilt b BPanic)) as [[[? ?] ?]|]; congruence.
Qed.
Lemma om_put w s i g s1 n inn : omeans w s ->
  (forall f o p, nth_error fo i = Some (f, o) -> nth_error ps i = Some p -> fmeans c f o p g s1) ->
  omeans (mk_wobject (replace (w_fields w) i g) n inn) (mk_object (replace (o_fields s) i s1) inn).
Proof.
  intros M K. split; cbn [w_fields o_fields w_inner o_inner]; rewrite ?replace_put, ?put_length; [apply M|apply M|reflexivity|].
  intros j f o p g' s' F P G S1. rewrite ?replace_put in G. rewrite ?replace_put in S1. destruct (Nat.eq_dec i j) as [<-|N].
  - destruct (nth_error (w_fields w) i) as [g0|] eqn:G0.
    + destruct (om_at _ _ _ _ M G0) as (? & ? & ? & s0 & _ & _ & S0 & _).
      rewrite (put_same _ _ _ _ G0) in G. rewrite (put_same _ _ _ _ S0) in S1. injection G as <-. injection S1 as <-. exact (K f o p F P).
    + exfalso. assert (X : nth_error (put (w_fields w) i g) i = None) by (apply nth_error_None; rewrite put_length; apply nth_error_None, G0). congruence.
  - rewrite put_other in G by exact N. rewrite put_other in S1 by exact N. exact (om_field _ _ M j f o p g' s' F P G S1).
Qed.
Lemma lazy_role i f o p a : nth_error fo i = Some (f, o) -> part_of c f o = Some p -> p_store p = KeptLazy a ->
  exists r fl, nth_error roles i = Some r /\ v_shape (r_view r) = Lazy fl.
Proof.
  intros F P Ps. destruct (part_facts c f o p P) as (ty & ms & T & _ & So & _). rewrite Ps in So.
  destruct (lazy_type c f ty a T So) as (Sy & La & _).
  eexists. exists (is_fallible c f). split; [unfold roles_of; apply map_nth_error, F|]. cbn [fst snd r_view].
  unfold view_of. rewrite Sy. cbn. rewrite La. reflexivity.
Qed.
Lemma seen i f o p h h' : nth_error fo i = Some (f, o) -> part_of c f o = Some p -> Forall2 hlike h h' ->
  ((forall a, p_store p <> KeptLazy a) -> h = h') -> Forall2 (seen_as roles) (map (pair i) h) (map (pair i) h').
Proof.
  intros F P H N. assert (D : (exists a, p_store p = KeptLazy a) \/ forall a, p_store p <> KeptLazy a).
  { destruct (p_store p); [left; eexists; reflexivity|right; discriminate|right; discriminate]. }
  destruct D as [[a Ps]|D].
  - destruct (lazy_role i f o p a F P Ps) as (r & fl & R & Sh). clear N. induction H as [|x y h h' A H IH]; cbn; constructor; [|exact IH].
    destruct A; [constructor|econstructor; eauto].
  - rewrite (N D). clear. induction h'; cbn; constructor; [constructor|assumption].
Qed.
Lemma wfield_means w s i x p0 q0 fs h t : omeans w s -> wfield_step dflt user ps w i x p0 q0 = Some (fs, h, t) ->
  exists fs' h' t', field_step dflt user ps s i x = Some (fs', h', t') /\ Forall2 (seen_as roles) h h' /\
    Forall2 (beside (@WeakSpec.alike nat nat)) t t' /\ forall n inn, omeans (mk_wobject fs n inn) (mk_object fs' inn).
Proof.
  intros M H. unfold wfield_step in H. destruct (nth_error ps i) as [p|] eqn:P; [|discriminate H].
  destruct (nth_error (w_fields w) i) as [g|] eqn:G; [|discriminate H].
  destruct (wpart_step dflt user p (w_next w) p0 q0 g x) as [[[g' h0] t0]|] eqn:E; [|discriminate H]. injection H as <- <- <-.
  destruct (om_at _ _ _ _ M G) as (f & o & p' & s1 & F & P' & S1 & Fm). rewrite P in P'. injection P' as <-.
  destruct (part_at i f o F) as (p' & P' & Pt & Sf & W). rewrite P in P'. injection P' as <-.
  destruct (fmeans_step c f dflt user o p Sf Pt W _ _ _ _ _ _ _ _ _ Fm E) as (s' & h' & t' & St & Hh & Nl & Ht & Fm').
  unfold field_step. rewrite P, S1, St. eexists. eexists. eexists. split; [reflexivity|].
  split; [exact (seen i f o p _ _ F Pt Hh Nl)|]. split; [apply beside_map, Ht|]. intros n inn. apply om_put; [exact M|].
  intros f1 o1 p1 F1 P1. rewrite F in F1. rewrite P in P1. injection F1 as <- <-. injection P1 as <-. exact Fm'.
Qed.
Lemma om_later w s n : omeans w s -> omeans (mk_wobject (w_fields w) n (w_inner w)) s.
Proof. intros [A B C D]. split; cbn; assumption. Qed.
Lemma worun_means l : forall w s w' h t, omeans w s -> worun dflt user ps w l = Some (w', h, t) ->
  exists s' h' t', orun dflt user ps s (plain_acts l) = Some (s', h', t') /\ Forall2 (seen_as roles) h h' /\
    Forall2 (beside (@WeakSpec.alike nat nat)) t t' /\ omeans w' s'.
Proof.
  induction l as [|x l IH]; intros w s w' h t M H; cbn [worun] in H.
  - injection H as <- <- <-. exists s, [], []. cbn. auto.
  - destruct (wostep dflt user ps w x) as [[[w1 h1] t1]|] eqn:E; [|discriminate H].
    destruct (worun dflt user ps w1 l) as [[[w2 h2] t2]|] eqn:R; [|discriminate H]. injection H as <- <- <-.
    destruct x as [i y p0 q0|i b j a k n|i a j b]; cbn [wostep] in E.
    + destruct (held (shadow w) i y) eqn:Hd; [discriminate E|].
      destruct (wfield_step dflt user ps w i y p0 q0) as [[[fs h0] t0]|] eqn:F; [|discriminate E]. injection E as <- <- <-.
      destruct (wfield_means _ _ _ _ _ _ _ _ _ M F) as (fs' & h' & t' & F' & Hh & Ht & K).
      rewrite (om_held _ _ _ _ M) in Hd.
      rewrite (om_inner _ _ M) in R.
      destruct (IH _ (mk_object fs' match y with MInvoke a _ _ | MUse a _ => forget (i, a) (o_inner s) | _ => o_inner s end) _ _ _
        (K _ _) R) as (s2 & h2' & t2' & R2 & Hh2 & Ht2 & M2).
      exists s2, (h' ++ h2'), (t' ++ t2'). cbn [plain_acts flat_map app orun ostep]. fold (plain_acts l). rewrite Hd, F', R2.
      split; [reflexivity|]. split; [apply Forall2_app; assumption|]. split; [apply Forall2_app; assumption|exact M2].
    + destruct (building dflt user ps (shadow w) i b && free_to_call ps (shadow w) i b) eqn:Bd; [|discriminate E].
      apply andb_true_iff in Bd as [B1 B2]. rewrite (om_free _ _ _ _ M) in B2. apply (om_building _ _ _ _ M) in B1.
      destruct (wfield_step dflt user ps w j (MInvoke a k n) 0 0) as [[[fs h0] t0]|] eqn:F; [|discriminate E]. injection E as <- <- <-.
      destruct (wfield_means _ _ _ _ _ _ _ _ _ M F) as (fs' & h' & t' & F' & Hh & Ht & K).
      rewrite (om_inner _ _ M) in R.
      destruct (IH _ (mk_object fs' (((j, a), (i, b)) :: forget (j, a) (o_inner s))) _ _ _
        (K _ _) R) as (s2 & h2' & t2' & R2 & Hh2 & Ht2 & M2).
      exists s2, (h' ++ h2'), (t' ++ t2'). cbn [plain_acts flat_map app orun ostep]. fold (plain_acts l). rewrite B1, B2, F'. cbn [andb]. rewrite R2.
      split; [reflexivity|]. split; [apply Forall2_app; assumption|]. split; [apply Forall2_app; assumption|exact M2].
    + destruct (nth_error (w_fields w) i) as [f0|]; [|discriminate E].
      destruct (nth_error (w_fields w) j) as [g|] eqn:G; [|discriminate E]. injection E as <- <- <-.
      destruct (om_at _ _ _ _ M G) as (f & o & p & s1 & F & P & S1 & Fm).
      assert (M1 : omeans (mk_wobject (replace (w_fields w) j (wtold b (wknows f0 a) g)) (w_next w) (w_inner w)) s).
      { split; cbn [w_fields w_inner]; rewrite ?replace_put, ?put_length; try apply M.
        intros i' f' o' p' g' s' F' P' G' S'. rewrite ?replace_put in G'. destruct (Nat.eq_dec j i') as [<-|N].
        - rewrite (put_same _ _ _ _ G) in G'. injection G' as <-. apply fmeans_told. exact (om_field _ _ M j f' o' p' g s' F' P' G S').
        - rewrite put_other in G' by exact N. exact (om_field _ _ M i' f' o' p' g' s' F' P' G' S'). }
      destruct (IH _ _ _ _ _ M1 R) as (s2 & h2' & t2' & R2 & Hh2 & Ht2 & M2).
      exists s2, h2', t2'. auto.
Qed.
Lemma omeans_start : omeans (mk_wobject (map wpart_start ps) 1 []) (ostart ps).
Proof.
  split; cbn; [apply map_length|apply map_length|reflexivity|]. intros i f o p g s1 F P G S1.
  rewrite (map_nth_error wpart_start _ _ P) in G. rewrite (map_nth_error part_start _ _ P) in S1. injection G as <-. injection S1 as <-.
  destruct (part_at i f o F) as (p' & P' & Pt & Sf & _). rewrite P in P'. injection P' as <-. apply fmeans_start; assumption.
Qed.
Theorem weak_means l w h t : weak_object_run dflt user ps l = Some (w, h, t) ->
  exists s h' t', object_run dflt user ps (plain_acts l) = Some (s, h', t') /\ Forall2 (seen_as roles) h h' /\
    Forall2 (beside (@WeakSpec.alike nat nat)) t t' /\ omeans w s.
Proof. intros H. exact (worun_means l _ _ _ _ _ omeans_start H). Qed.

Theorem weak_no_race l w h t : weak_object_run dflt user ps l = Some (w, h, t) -> forall g, In g (w_fields w) -> wraced g = false.
Proof.
  intros H g I. destruct (weak_means l w h t H) as (s & _ & _ & _ & _ & _ & M).
  apply In_nth_error in I as [i I]. destruct (om_at _ _ _ _ M I) as (f & o & p & s1 & _ & _ & _ & Fm). exact (fmeans_raced _ _ _ _ _ _ Fm).
Qed.
Theorem weak_history bld l w h t : weak_object_run dflt user ps l = Some (w, h, t) -> (forall i, oracle (bld i) (at_field i t)) ->
  exists h' ws, Forall2 (seen_as roles) h h' /\ rruns bld dflt roles (rstart roles) h' ws.
Proof.
  intros H O. destruct (weak_means l w h t H) as (s & h' & t' & R & Hh & Ht & M).
  destruct (object_history c fo ps bld dflt user Sk Po Wk _ _ _ _ R) as (ws & W).
  - intros i. pose proof (O i) as Oi. unfold oracle in *. rewrite <- (ends_alike _ _ (beside_at _ i _ _ Ht)). exact Oi.
  - exists h', ws. auto.
Qed.
Lemma seen_exact h h' : Forall2 (seen_as roles) h h' ->
  (forall i a b r fl, In (i, HRet a (ORet (AnBool b))) h -> nth_error roles i = Some r -> v_shape (r_view r) <> Lazy fl) -> h = h'.
Proof.
  induction 1 as [|x y h h' A F IH]; intros K; [reflexivity|]. f_equal; [|apply IH; intros; eapply K; [right|]; eassumption].
  destruct A as [e|i r fl a b b' R L]; [reflexivity|]. destruct (K i a b r fl (or_introl eq_refl) R L).
Qed.
Lemma worun_snoc l : forall w w1 h t x, worun dflt user ps w l = Some (w1, h, t) -> wostep dflt user ps w1 x <> None ->
  worun dflt user ps w (l ++ [x]) <> None.
Proof.
  induction l as [|y l IH]; intros s s1 h t x H N; cbn [worun app] in *.
  - injection H as <- <- <-. destruct (wostep dflt user ps s x) as [[[? ?] ?]|]; [discriminate|congruence].
  - destruct (wostep dflt user ps s y) as [[[s2 h2] t2]|]; [|discriminate H].
    destruct (worun dflt user ps s2 l) as [[[s3 h3] t3]|] eqn:Q; [|discriminate H]. injection H as <- <- <-.
    pose proof (IH _ _ _ _ x Q N) as Z. destruct (worun dflt user ps s2 (l ++ [x])) as [[[? ?] ?]|]; [discriminate|congruence].
Qed.
Lemma orun_last l : forall s s1 h t x, orun dflt user ps s l = Some (s1, h, t) -> orun dflt user ps s (l ++ [x]) <> None ->
  ostep dflt user ps s1 x <> None.
Proof.
  induction l as [|y l IH]; intros s s1 h t x H N; cbn [orun app] in *.
  - injection H as <- <- <-. destruct (ostep dflt user ps s x); congruence.
  - destruct (ostep dflt user ps s y) as [[[s2 h2] t2]|]; [|discriminate H].
    destruct (orun dflt user ps s2 l) as [[[s3 h3] t3]|] eqn:Q; [|discriminate H]. injection H as <- <- <-.
    apply (IH _ _ _ _ x Q). destruct (orun dflt user ps s2 (l ++ [x])); congruence.
Qed.
Lemma om_can w s i y : omeans w s -> ostep dflt user ps s (OAct i y) <> None -> exists p0 q0, wostep dflt user ps w (WAct i y p0 q0) <> None.
Proof.
  intros M H. cbn [ostep wostep] in *. rewrite (om_held _ _ _ _ M). destruct (held s i y); [congruence|].
  unfold field_step, wfield_step in *. destruct (nth_error ps i) as [p|] eqn:P; [|congruence].
  destruct (nth_error (w_fields w) i) as [g|] eqn:G.
  2:{ rewrite (om_none _ _ _ M G) in H. congruence. }
  destruct (om_at _ _ _ _ M G) as (f & o & p' & s1 & F & P' & S1 & Fm). rewrite P in P'. injection P' as <-. rewrite S1 in H.
  destruct (part_at i f o F) as (p' & P' & Pt & _ & _). rewrite P in P'. injection P' as <-.
  destruct (fmeans_can c f dflt user o p Pt (w_next w) g s1 y Fm) as (p0 & q0 & C).
  { destruct (part_step dflt user p s1 y) as [[[? ?] ?]|]; congruence. }
  exists p0, q0. destruct (wpart_step dflt user p (w_next w) p0 q0 g y) as [[[? ?] ?]|]; congruence.
Qed.
Theorem weak_moves (rank : nat -> nat) l w h t i a : weak_object_run dflt user ps l = Some (w, h, t) ->
  (forall i b j a k n, In (WInner i b j a k n) l -> rank j < rank i) ->
  acting (map bare (w_fields w)) (i, a) = true ->
  let next x := weak_object_run dflt user ps (l ++ [x]) in
  (exists j b p q, next (WAct j (MGo b) p q) <> None \/ next (WAct j (MStep b) p q) <> None) \/
  (exists j b, forall out, exists p q, next (WAct j (MBuilt b out) p q) <> None) \/
  (exists j g b gd, nth_error (w_fields w) j = Some g /\ place_of (bare g) b = Keeps gd).
Proof.
  intros H D A next. destruct (weak_means l w h t H) as (s & h' & t' & R & _ & _ & M).
  rewrite (om_acting _ _ _ M) in A.
  assert (D' : descending rank (plain_acts l)).
  { intros i' b j a' k n I. unfold plain_acts in I. apply in_flat_map in I as ([i2 y p0 q0|i2 b2 j2 a2 k2 n2|i2 a2 j2 b2] & I1 & I2); cbn in I2.
    - destruct I2 as [E|[]]. discriminate E.
    - destruct I2 as [E|[]]. injection E as <- <- <- <- <- <-. exact (D _ _ _ _ _ _ I1).
    - destruct I2. }
  assert (K : forall j y, object_run dflt user ps (plain_acts l ++ [OAct j y]) <> None -> exists p q, next (WAct j y p q) <> None).
  { intros j y N. apply (orun_last _ _ _ _ _ _ R) in N. destruct (om_can _ _ _ _ M N) as (p0 & q0 & C). exists p0, q0.
    exact (worun_snoc l _ _ _ _ _ H C). }
  destruct (object_moves c fo ps (fun _ _ => BPanic) dflt user Sk Po Wk rank _ _ _ _ i a R D' A) as [(j & b & [N|N])|[(j & b & N)|(j & fs & b & g & F & P)]].
  - left. destruct (K _ _ N) as (p0 & q0 & C). exists j, b, p0, q0. auto.
  - left. destruct (K _ _ N) as (p0 & q0 & C). exists j, b, p0, q0. auto.
  - right. left. exists j, b. intros out. exact (K _ _ (N out)).
  - right. right. destruct (nth_error (w_fields w) j) as [g0|] eqn:G.
    + destruct (om_at _ _ _ _ M G) as (f & o & p & s1 & _ & _ & S1 & Fm). rewrite F in S1. injection S1 as <-.
      exists j, g0, b, g. split; [exact G|]. rewrite (fmeans_place _ _ _ _ _ _ _ Fm). exact P.
    + rewrite (om_none _ _ _ M G) in F. discriminate F.
Qed.
End Object.
