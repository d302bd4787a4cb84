(** The same on weak memory, and from the words of the attributes. *)
From Coq Require Import List Bool String Arith Lia.
From Verif Require Import ProxyTypes ArgsModel CtxModel ArgsSpec TokenSpec ParseInput RustAst CommonGen StructGen CodegenSpec FieldSpec FieldRun GuardCell
  WrittenSpec WrittenProofs WrittenNames SignSpec SignTypes SignMethods MadeSpec MadeProofs BehaveSpec BehaveProofs
  ThreadSpec ThreadModel LockedModel ObjectSpec ObjectModel ObjectProofs ObjectParts ObjectRecord ObjectWords
  WeakSpec WeakObjectSpec WeakObjectModel WeakObjectThreads WeakObjectParts WeakObjectProofs EndSpec EndProofs EndObject.
Import ListNotations.
Open Scope list_scope.

Section Object.
Variables (c : sctx) (fo : list (field * option nat)) (ps : list part).
Variables (dflt : nat) (user : string -> nat).
Hypothesis Sk : forall f o, In (f, o) fo -> f_is_skipped f = false.
Hypothesis Po : map (fun x => part_of c (fst x) (snd x)) fo = map Some ps.
Hypothesis Wk : forall f o ms k, In (f, o) fo -> field_methods c f = GOk ms -> In k (map m_kind ms) -> works c f k = true.

Theorem weak_bounded l w h t i a : weak_object_run dflt user ps l = Some (w, h, t) ->
  count (fun x => negb (asks_more x) && same (whose x) (i, a)) (plain_acts l) <=
  20 * count (fun x => asks_more x && same (whose x) (i, a)) (plain_acts l).
Proof.
  intros H. destruct (weak_means c fo ps dflt user Sk Po Wk l w h t H) as (s & h' & t' & R & _ & _ & _).
  exact (object_bounded c fo ps dflt user Sk Po Wk _ _ _ _ i a R).
Qed.
Lemma worun_cons w x w1 h1 t1 l w2 h2 t2 : wostep dflt user ps w x = Some (w1, h1, t1) -> worun dflt user ps w1 l = Some (w2, h2, t2) ->
  worun dflt user ps w (x :: l) = Some (w2, h1 ++ h2, t1 ++ t2).
Proof. intros A B. cbn [worun]. rewrite A, B. reflexivity. Qed.
Lemma worun_app l : forall w w1 h1 t1 l' w2 h2 t2, worun dflt user ps w l = Some (w1, h1, t1) -> worun dflt user ps w1 l' = Some (w2, h2, t2) ->
  worun dflt user ps w (l ++ l') = Some (w2, h1 ++ h2, t1 ++ t2).
Proof.
  induction l as [|x l IH]; intros w w1 h1 t1 l' w2 h2 t2 A B.
  - injection A as <- <- <-. exact B.
  - cbn [worun] in A. destruct (wostep dflt user ps w x) as [[[w3 h3] t3]|] eqn:E; [|discriminate A].
    destruct (worun dflt user ps w3 l) as [[[w4 h4] t4]|] eqn:F; [|discriminate A]. injection A as <- <- <-.
    rewrite <- !app_assoc. exact (worun_cons _ _ _ _ _ _ _ _ _ E (IH _ _ _ _ _ _ _ _ F B)).
Qed.
(** What the object of ObjectModel.v can do, this one can. *)
Lemma follows out l' : Forall (winding_down out) l' -> forall w s s' h' t', omeans c fo ps w s -> orun dflt user ps s l' = Some (s', h', t') ->
  exists wl w' h t, plain_acts wl = l' /\ worun dflt user ps w wl = Some (w', h, t) /\ omeans c fo ps w' s'.
Proof.
  induction 1 as [|x l' W F IH]; intros w s s' h' t' M H.
  - injection H as <- <- <-. exists [], w, [], []. auto.
  - cbn [orun] in H. destruct (ostep dflt user ps s x) as [[[s1 h1] t1]|] eqn:St; [|discriminate H].
    destruct (orun dflt user ps s1 l') as [[[s2 h2] t2]|] eqn:Rn; [|discriminate H]. injection H as <- <- <-.
    destruct x as [i y|i b j a k n]; [|destruct W as [W _]; discriminate W].
    destruct (om_can c fo ps dflt user Sk Po Wk w s i y M) as (p0 & q0 & C); [congruence|].
    destruct (wostep dflt user ps w (WAct i y p0 q0)) as [[[w1 g1] u1]|] eqn:E; [|congruence].
    assert (R1 : worun dflt user ps w [WAct i y p0 q0] = Some (w1, g1 ++ [], u1 ++ [])) by (cbn [worun]; rewrite E; reflexivity).
    destruct (worun_means c fo ps dflt user Sk Po Wk _ _ _ _ _ _ M R1) as (s3 & g3 & u3 & R3 & _ & _ & M3).
    cbn [plain_acts flat_map app orun] in R3. rewrite St in R3. injection R3 as <- _ _.
    destruct (IH _ _ _ _ _ M3 Rn) as (wl & w' & g & u & P & R & M').
    exists (WAct i y p0 q0 :: wl), w', (g1 ++ g), (u1 ++ u). split; [cbn; rewrite <- P; reflexivity|].
    split; [exact (worun_cons _ _ _ _ _ _ _ _ _ E R)|exact M'].
Qed.
Lemma orun_split l : forall s s1 h1 t1 l' s2 h2 t2, orun dflt user ps s l = Some (s1, h1, t1) ->
  orun dflt user ps s (l ++ l') = Some (s2, h2, t2) -> exists h3 t3, orun dflt user ps s1 l' = Some (s2, h3, t3).
Proof.
  induction l as [|x l IH]; intros s s1 h1 t1 l' s2 h2 t2 A B.
  - injection A as <- <- <-. exists h2, t2. exact B.
  - cbn [orun app] in A, B. destruct (ostep dflt user ps s x) as [[[s3 h3] t3]|]; [|discriminate A].
    destruct (orun dflt user ps s3 l) as [[[s4 h4] t4]|] eqn:E; [|discriminate A]. injection A as <- _ _.
    destruct (orun dflt user ps s3 (l ++ l')) as [[[s5 h5] t5]|] eqn:F; [|discriminate B]. injection B as <- _ _.
    exact (IH _ _ _ _ _ _ _ _ E F).
Qed.
Theorem weak_ends (rank : nat -> nat) out l w h t : weak_object_run dflt user ps l = Some (w, h, t) ->
  (forall i b j a k n, In (WInner i b j a k n) l -> rank j < rank i) ->
  exists l' w' h' t', Forall (winding_down out) (plain_acts l') /\ weak_object_run dflt user ps (l ++ l') = Some (w', h', t') /\ all_over (shadow w').
Proof.
  intros H D. destruct (weak_means c fo ps dflt user Sk Po Wk l w h t H) as (s & h1 & t1 & R & _ & _ & M).
  assert (D' : descending rank (plain_acts l)).
  { intros i' b j a' k n I. unfold plain_acts in I. apply in_flat_map in I as ([i2 y p0 q0|i2 b2 j2 a2 k2 n2|i2 a2 j2 b2] & I1 & I2); cbn in I2.
    - destruct I2 as [E|[]]. discriminate E.
    - destruct I2 as [E|[]]. injection E as <- <- <- <- <- <-. exact (D _ _ _ _ _ _ I1).
    - destruct I2. }
  destruct (object_ends c fo ps dflt user Sk Po Wk rank out _ _ _ _ R D') as (l1 & s1 & h2 & t2 & F & R1 & O).
  destruct (orun_split _ _ _ _ _ _ _ _ _ R R1) as (h3 & t3 & R3).
  destruct (follows out l1 F _ _ _ _ _ M R3) as (wl & w' & h4 & t4 & P & Rw & M').
  exists wl, w', (h ++ h4), (t ++ t4). rewrite P. split; [exact F|]. split; [exact (worun_app l _ _ _ _ _ _ _ _ H Rw)|].
  intros i fs a Hf. unfold shadow in Hf. cbn [o_fields] in Hf.
  destruct (nth_error (w_fields w') i) as [g|] eqn:G.
  - rewrite (map_nth_error bare _ _ G) in Hf. injection Hf as <-.
    destruct (om_at c fo ps Sk Po Wk _ _ _ _ M' G) as (f & o & p & s3 & _ & _ & S3 & Fm). rewrite (fmeans_place _ _ _ _ _ _ _ Fm). exact (O i s3 a S3).
  - assert (N : nth_error (map bare (w_fields w')) i = None) by (apply nth_error_None; rewrite map_length; apply nth_error_None, G). congruence.
Qed.
End Object.

Section Words.
  Variable ft : features.
  Variables (c : sctx) (ss : list (list tok)) (all : list source).
  Hypothesis HS : struct_as ft ss (c_args c).
  Hypothesis HF : Forall2 (read_as ft) all (c_input_fields c).
  Variable its : list (source * facts * field * option nat).
  Hypothesis Told : forall x q f o, In (x, q, f, o) its ->
    read_as ft x f /\ ~ skipped x /\ facts_told ss all x q /\ forall k, method_for ss all x k -> sound_call q k = true.
  Theorem w_ends ps dflt user (rank : nat -> nat) l s h t :
    map (fun x => part_of c (fst x) (snd x)) (its_fields its) = map Some ps ->
    object_run dflt user ps l = Some (s, h, t) ->
    count (fun x => negb (asks_more x)) l <= 20 * count asks_more l /\
    (descending rank l -> forall out,
     exists l' s' h' t', Forall (winding_down out) l' /\ object_run dflt user ps (l ++ l') = Some (s', h', t') /\ all_over s').
  Proof.
    intros P H.
    assert (Sk : forall f o, In (f, o) (its_fields its) -> f_is_skipped f = false).
    { intros f o I. apply in_map_iff in I as ([[[x q] f'] o'] & E & I). injection E as -> ->.
      destruct (Told x q f o I) as (R & NS & _ & _). rewrite <- (f_skipped ft x f R), not_true_iff_false in NS. exact NS. }
    assert (Wk : forall f o ms k, In (f, o) (its_fields its) -> field_methods c f = GOk ms -> In k (map m_kind ms) -> works c f k = true).
    { intros f o ms k I M K. apply in_map_iff in I as ([[[x q] f'] o'] & E & I). injection E as -> ->.
      destruct (Told x q f o I) as (R & _ & Q & So). apply (w_methods ft c ss all HS HF x f R k ms M) in K.
      exact (works_told ft c ss all HS HF x f R q k ms Q M K (So k K)). }
    split; [exact (object_finite c _ ps dflt user Sk P Wk l s h t H)|].
    intros D out. exact (object_ends c _ ps dflt user Sk P Wk rank out l s h t H D).
  Qed.
End Words.
