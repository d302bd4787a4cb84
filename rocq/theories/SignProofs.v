(** Proofs for C79: arguments inside of arguments. *)
From Coq Require Import List Bool String Ascii.
From Verif Require Import ArgsModel CtxModel ArgsSpec TokenSpec ParseInput ParseModel ParseSpec ParseFacts ParseForms ParseDefault GrammarSpec GrammarProofs
  RustAst CommonGen PlainGen SyncGen StructGen CodegenSpec CodegenStruct WrittenSpec WrittenProofs WrittenNames SignSpec.
Import ListNotations.
Open Scope string_scope.
Open Scope list_scope.

(** ** Arguments and what is stored for them *)
Definition stored (cs : list (list tok)) (seen : list (string * smeta)) : Prop :=
  (forall n m, assoc n seen = Some m -> meta_ok m /\ exists c, In c cs /\ argument_for n c (rest m)) /\
  (forall n c r, segment_ok n = true -> In c cs -> argument_for n c r -> exists m, assoc n seen = Some m /\ rest m = r).
Lemma stored_nil : stored [] [].
Proof. split; [discriminate|intros n c r _ []]. Qed.
Lemma stored_items known l rules cs items seen : tidy known l rules = true -> all_some parse_nested cs = Some items ->
  collect known [] (non_literals items) = Some seen -> stored cs seen.
Proof.
  intros T AS C. destruct (linked known l rules T cs items seen AS C) as (P & L1 & _ & L3). split; [|exact L3].
  intros n m E. split; [apply (P _ _ E)|]. destruct (L1 n m E) as (c & I & _ & X). eauto.
Qed.
Lemma stored_given cs seen n : stored cs seen -> segment_ok n = true -> (given_in n cs <-> assoc n seen <> None).
Proof.
  intros [L1 L3] S. split.
  - intros (c & I & r & X). destruct (L3 n c r S I X) as (m & E & _). congruence.
  - intros N. apply not_none in N. destruct N as (m & E). destruct (L1 n m E) as (_ & c & I & X). exists c. split; [exact I|]. exists (rest m). exact X.
Qed.
Lemma stored_on cs seen n : stored cs seen -> segment_ok n = true -> (on_in n cs <-> on_seen n seen).
Proof.
  intros [L1 L3] S. split.
  - intros (c & r & I & X & O). destruct (L3 n c r S I X) as (m & E & <-). exists m. auto.
  - intros (m & E & O). destruct (L1 n m E) as (_ & c & I & X). exists c, (rest m). auto.
Qed.
Lemma stored_word cs seen n o : stored cs seen -> segment_ok n = true -> opt_arg seen n bool_arg = Some o -> heeds (word n cs) o.
Proof.
  intros ST S O. apply heeds_says. unfold opt_arg in O.
  pose proof (stored_given _ _ _ ST S) as G. pose proof (stored_on _ _ _ ST S) as N. unfold says. rewrite G, N.
  unfold on_seen. destruct (assoc n seen) as [m|] eqn:E.
  - destruct (bool_arg m) as [b|] eqn:B; [|discriminate]. injection O as <-.
    pose proof (bool_honest m b (proj1 (proj1 ST n m E)) B) as H.
    assert (K : (exists m0, Some m = Some m0 /\ ~ switched_off (rest m0)) <-> b = true).
    { rewrite negb_false_iff in H. split; [intros (m0 & Q & Y); injection Q as <-; tauto|intros Y; exists m; tauto]. }
    rewrite K. destruct b; intuition congruence.
  - injection O as <-. split; [intuition congruence|]. split; split; try discriminate; try (intros (m & Q & _); discriminate).
    intros [Q _]. congruence.
Qed.

(** ** Inside of an argument *)
(** [bs] are the arguments in the parentheses of [m], if it has any. *)
Definition view (m : smeta) (bs : list (list tok)) : Prop :=
  (rest m = [] /\ bs = []) \/ exists d ts, rest m = [TGroup d ts] /\ arguments bs ts.
Definition carries {A} (f : smeta -> option A) (P : list (string * smeta) -> A -> Prop) : Prop :=
  forall m a, f m = Some a -> exists bs sn, view m bs /\ stored bs sn /\ P sn a.
Lemma nesting_carries {A} known l rules (k : list (string * smeta) -> option A) kw st (P : list (string * smeta) -> A -> Prop) :
  tidy known l rules = true ->
  (forall sn a, k sn = Some a -> P sn a) ->
  (forall sn a ls b, P sn a -> st a ls = Some b -> P sn b) ->
  (forall a, kw = Some a -> P [] a) ->
  carries (nesting kw (fun items => get? seen := collect known [] items in k seen) no_value st) P.
Proof.
  intros T HK HS HW m a H. destruct m as [p|p d ts|p v]; simpl in *; [| |discriminate].
  - exists [], []. split; [left; auto|]. split; [exact stored_nil|apply HW, H].
  - unfold extract_literals in H. destruct (parse_meta_list ts) as [items|] eqn:PM; [|discriminate]. cbn [obind] in H.
    destruct (accepted_arguments ts items PM) as (bs & AR & AS).
    destruct (collect known [] (non_literals items)) as [sn|] eqn:C; [|discriminate]. cbn [obind] in H.
    destruct (k sn) as [x|] eqn:E; [|discriminate]. cbn [obind] in H.
    exists bs, sn. split; [right; exists d, ts; auto|]. split; [apply (stored_items _ _ _ _ _ _ T AS C)|].
    destruct (literals items) as [|s ls]; [injection H as <-; apply HK, E|]. eapply HS; [apply HK, E|exact H].
Qed.
(** What is inside of [n] among [cs]: nothing, or these. *)
Definition opened (n : string) (cs bs : list (list tok)) : Prop :=
  (forall bs', inside n cs bs' -> bs' = bs) /\ (inside n cs bs \/ bs = []).
Lemma carried {A} cs seen n (f : smeta -> option A) (P : list (string * smeta) -> A -> Prop) o : stored cs seen -> segment_ok n = true -> carries f P ->
  opt_arg seen n f = Some o ->
  exists bs sn, opened n cs bs /\ stored bs sn /\ match o with Some a => P sn a | None => sn = [] end.
Proof.
  intros [L1 L3] S F O. unfold opt_arg in O. destruct (assoc n seen) as [m|] eqn:E.
  - destruct (f m) as [a|] eqn:X; [|discriminate]. injection O as <-. destruct (F m a X) as (bs & sn & V & ST & H).
    exists bs, sn. split; [|auto]. destruct (L1 n m E) as (_ & c & I & Y). split.
    + intros bs' (c' & d & ts & I' & Y' & A'). destruct (L3 n c' _ S I' Y') as (m' & E' & R). rewrite E in E'. injection E' as <-.
      destruct V as [[Z _]|(d0 & ts0 & Z & A0)]; rewrite Z in R; [discriminate|]. injection R as -> ->. apply (arguments_fun _ _ _ A' A0).
    + destruct V as [[_ ->]|(d & ts & Z & A0)]; [auto|]. left. rewrite Z in Y. exists c, d, ts. auto.
  - injection O as <-. exists [], []. split; [|split; [exact stored_nil|reflexivity]]. split; [|auto].
    intros bs' (c' & d & ts & I' & Y' & _). destruct (L3 n c' _ S I' Y') as (m' & E' & _). congruence.
Qed.
Lemma within_heeds n cs bs (V : list (list tok) -> vote) v : opened n cs bs -> (snd (V bs) -> fst (V bs)) -> ~ fst (V []) -> heeds (V bs) v -> heeds (within n V cs) v.
Proof.
  intros [U I] M N H. unfold heeds, within in *. cbn [fst snd].
  assert (F : (exists b, inside n cs b /\ fst (V b)) <-> fst (V bs)).
  { split; [intros (b & J & Y); rewrite (U _ J) in Y; exact Y|]. intros Y. destruct I as [I| ->]; [exists bs; auto|contradiction]. }
  assert (G : (exists b, inside n cs b /\ snd (V b)) <-> snd (V bs)).
  { split; [intros (b & J & Y); rewrite (U _ J) in Y; exact Y|]. intros Y. destruct I as [I| ->]; [exists bs; auto|]. contradiction (N (M Y)). }
  destruct v as [[]|]; rewrite F, ?G; exact H.
Qed.
Lemma empty_word n : ~ fst (word n []).
Proof. intros (c & [] & _). Qed.
Lemma word_within n cs bs sn w o : opened n cs bs -> stored bs sn -> segment_ok w = true -> opt_arg sn w bool_arg = Some o ->
  heeds (within n (word w) cs) o.
Proof.
  intros O ST S H. apply (within_heeds n cs bs (word w) o O); [apply on_given|apply empty_word|]. apply (stored_word bs sn w o ST S H).
Qed.

(** ** Visibility *)
Lemma place_means m p : meta_ok m -> pub_arg m = Some p -> forall v, in_place (rest m) v <-> v = pub_tok p.
Proof.
  intros M H v. destruct m as [q|q d ts|q w]; simpl in *.
  - injection H as <-. simpl. split; [intros W; inversion W; reflexivity|intros ->; constructor].
  - unfold extract_literals in H. destruct (parse_meta_list ts) as [items|] eqn:P; [|discriminate]. cbn [obind] in H.
    destruct (accepted_arguments ts items P) as (cs & A & AS).
    destruct (pub_from_list (non_literals items)) as [x|] eqn:F; [|discriminate]. cbn [obind] in H.
    destruct (literals items) eqn:L; [|discriminate]. injection H as ->.
    rewrite (no_lits _ L) in F. destruct items as [|[s|m] [|y r]]; try discriminate.
    apply all_some_Forall2 in AS. inversion AS as [|c y cs' r' Pc Q E1 E2]; subst. inversion Q; subst. clear AS Q.
    destruct (parse_nested_inv _ _ Pc) as [T MO]. unfold pub_from_list in F.
    assert (U : forall c', arguments [c'] ts -> c' = c) by (intros c' A'; pose proof (arguments_fun _ _ _ A' A) as Z; injection Z as ->; reflexivity).
    destruct (String.eqb_spec (meta_name m) "crate") as [E|_].
    { destruct m as [q'| |]; try discriminate. injection F as <-.
      assert (X : argument_for "crate" c []) by (rewrite T; exact (meta_argument (SPath q') "crate" MO E eq_refl)). split.
      - intros W; inversion W as [|d' ts' c' A' Y|d' ts' c' A' Y|d' ts' c' p' A' Y|d' ts' c' p' t' A' Y| |]; subst; try reflexivity;
          rewrite (U _ A') in Y; destruct (argument_for_fun _ _ _ _ _ X Y) as [Z _]; discriminate.
      - intros ->. apply (place_crate d ts c A X). }
    destruct (String.eqb_spec (meta_name m) "super") as [E|_].
    { destruct m as [q'| |]; try discriminate. injection F as <-.
      assert (X : argument_for "super" c []) by (rewrite T; exact (meta_argument (SPath q') "super" MO E eq_refl)). split.
      - intros W; inversion W as [|d' ts' c' A' Y|d' ts' c' A' Y|d' ts' c' p' A' Y|d' ts' c' p' t' A' Y| |]; subst; try reflexivity;
          rewrite (U _ A') in Y; destruct (argument_for_fun _ _ _ _ _ X Y) as [Z _]; discriminate.
      - intros ->. apply (place_super d ts c A X). }
    destruct (String.eqb_spec (meta_name m) "in_mod") as [E|_]; [|discriminate].
    destruct m as [q'|q' d' g|q' w]; try discriminate.
    assert (X : argument_for "in_mod" c (TPunct "=" :: w)) by (rewrite T; exact (meta_argument (SValue q' w) "in_mod" MO E eq_refl)).
    unfold path_from_meta in F. destruct (parse_lit w) as [s|] eqn:PL.
    + destruct (lit_str s) as [t|] eqn:LS; [|discriminate]. injection F as <-.
      pose proof (lit_string _ _ _ PL LS) as W. subst w. split.
      * intros V; inversion V as [|d' ts' c' A' Y|d' ts' c' A' Y|d' ts' c' p' A' Y AP|d' ts' c' p' t' A' Y TI| |]; subst;
          rewrite (U _ A') in Y; destruct (argument_for_fun _ _ _ _ _ X Y) as [Z Z']; try discriminate.
        -- injection Z' as <-. inversion AP as [l0 PO|]; subst. inversion PO.
        -- injection Z' as <-. apply text_lit in TI. rewrite LS in TI. injection TI as <-. reflexivity.
      * intros ->. apply (place_text d ts c [TLit s] t A X). apply text_lit, LS.
    + destruct (parse_path w) as [[q2 r2]|] eqn:PP; [|discriminate]. cbn [obind fst snd option_map] in F.
      destruct r2; [|discriminate]. injection F as <-. apply parse_path_inv in PP. destruct PP as (W & N2 & F2). rewrite app_nil_r in W. subst w.
      split.
      * intros V; inversion V as [|d' ts' c' A' Y|d' ts' c' A' Y|d' ts' c' p' A' Y AP|d' ts' c' p' t' A' Y TI| |]; subst;
          rewrite (U _ A') in Y; destruct (argument_for_fun _ _ _ _ _ X Y) as [Z Z']; try discriminate; injection Z' as <-.
        -- rewrite written_show. reflexivity.
        -- exfalso. destruct (text_shape _ _ TI) as (s & W & _). rewrite W in PL. discriminate.
      * intros ->. unfold show_path. simpl. rewrite <- written_show. apply (place_path d ts c (path_toks q2) A X).
        apply any_path_toks; assumption.
  - unfold pub_from_value in H. destruct (parse_lit w) as [s|] eqn:PL; [|discriminate]. cbn [obind] in H.
    destruct (lit_str s) as [t|] eqn:LS; [|discriminate]. cbn [obind] in H. pose proof (lit_string _ _ _ PL LS) as W. subst w.
    assert (TI : forall t', text_is t' [TLit s] -> t' = t) by (intros t' Y; apply text_lit in Y; congruence).
    destruct (String.eqb_spec t "crate") as [->|_].
    + injection H as <-. split; [|intros ->; constructor; apply text_lit, LS].
      intros V; inversion V as [| | | | |v' Y|v' Y]; subst; [reflexivity|]. discriminate (TI _ Y).
    + destruct (String.eqb_spec t "super") as [->|_]; [|discriminate].
      injection H as <-. split; [|intros ->; constructor; apply text_lit, LS].
      intros V; inversion V as [| | | | |v' Y|v' Y]; subst; [discriminate (TI _ Y)|reflexivity].
Qed.
Lemma shown_mode cs seen pu pr : stored cs seen -> opt_arg seen "public" pub_arg = Some pu -> opt_arg seen "private" bool_arg = Some pr ->
  forall v, option_map pub_tok (public_mode pu pr) = Some v <-> shown cs v.
Proof.
  intros ST U R v. pose proof (stored_word _ _ "private" _ ST eq_refl R) as W. destruct ST as [L1 L3].
  pose proof (on_given "private" cs) as OG.
  unfold public_mode. destruct pr as [[]|].
  - destruct W as [_ W]. cbn [snd word] in W. simpl. split.
    + intros E. injection E as <-. apply shown_private, W.
    + intros V. inversion V; subst; [reflexivity|contradiction].
  - assert (NP : ~ on_in "private" cs) by apply W. clear W. unfold opt_arg in U. destruct (assoc "public" seen) as [m|] eqn:E.
    + destruct (pub_arg m) as [p|] eqn:PA; [|discriminate]. injection U as <-. destruct (L1 _ _ E) as (MO & c & I & X).
      pose proof (place_means m p MO PA v) as PM. simpl. split.
      * intros Z. injection Z as Z. apply (shown_public cs c (rest m) v NP I X). apply PM. auto.
      * intros V. inversion V as [Y|c' r' v' _ I' X' PL]; subst; [contradiction|].
        destruct (L3 "public" c' r' eq_refl I' X') as (m' & E' & <-). rewrite E in E'. injection E' as <-. apply PM in PL. congruence.
    + injection U as <-. simpl. split; [discriminate|]. intros V. inversion V as [Y|c' r' v' _ I' X' PL]; subst; [contradiction|].
      destruct (L3 "public" c' r' eq_refl I' X') as (m' & E' & _). congruence.
  - assert (NP : ~ on_in "private" cs) by (intros Y; apply W, OG, Y). clear W. unfold opt_arg in U. destruct (assoc "public" seen) as [m|] eqn:E.
    + destruct (pub_arg m) as [p|] eqn:PA; [|discriminate]. injection U as <-. destruct (L1 _ _ E) as (MO & c & I & X).
      pose proof (place_means m p MO PA v) as PM. simpl. split.
      * intros Z. injection Z as Z. apply (shown_public cs c (rest m) v NP I X). apply PM. auto.
      * intros V. inversion V as [Y|c' r' v' _ I' X' PL]; subst; [contradiction|].
        destruct (L3 "public" c' r' eq_refl I' X') as (m' & E' & <-). rewrite E in E'. injection E' as <-. apply PM in PL. congruence.
    + injection U as <-. simpl. split; [discriminate|]. intros V. inversion V as [Y|c' r' v' _ I' X' PL]; subst; [contradiction|].
      destruct (L3 "public" c' r' eq_refl I' X') as (m' & E' & _). congruence.
Qed.

(** ** What the arguments carry *)
Definition helper_parts (sn : list (string * smeta)) (h : helper) : Prop :=
  opt_arg sn "public" pub_arg = Some (h_public h) /\ opt_arg sn "private" bool_arg = Some (h_private h).
Definition getter_parts (sn : list (string * smeta)) (a : accessor) : Prop :=
  helper_parts sn (a_base a) /\ flag sn "clone" = Some (a_clone a) /\ flag sn "copy" = Some (a_copy a) /\
  flag sn "as_ref" = Some (a_as_ref a) /\ a_clone a && a_copy a = false /\ a_clone a && a_as_ref a = false /\ a_copy a && a_as_ref a = false.
Definition setter_parts (sn : list (string * smeta)) (a : setter) : Prop :=
  helper_parts sn (st_base a) /\ opt_arg sn "into" bool_from_meta = Some (st_into a).
Definition builder_parts (sn : list (string * smeta)) (b : builder) : Prop :=
  helper_parts sn (b_base b) /\ opt_arg sn "into" bool_arg = Some (b_into b) /\ opt_arg sn "required" bool_arg = Some (b_required b) /\
  opt_arg sn "opt_in" bool_arg = Some (b_opt_in b).
Definition serde_parts (sn : list (string * smeta)) (w : serde) : Prop :=
  flag sn "off" = Some (se_off w) /\ opt_arg sn "serialize" bool_arg = Some (se_serialize w) /\
  opt_arg sn "deserialize" bool_arg = Some (se_deserialize w) /\ opt_arg sn "public" pub_arg = Some (se_public w) /\
  opt_arg sn "private" bool_arg = Some (se_private w).
Lemma helper_of_parts sn h : helper_of sn = Some h -> helper_parts sn h.
Proof.
  unfold helper_of, helper_parts.
  repeat match goal with |- obind ?x _ = Some _ -> _ => destruct x eqn:?; [cbn [obind]|discriminate] end.
  intros E. injection E as <-. simpl. auto.
Qed.
Ltac parts :=
  intros ? ? ?E; cbv beta in *;
  repeat match goal with
  | H : obind ?x _ = Some _ |- _ => destruct x eqn:?; [cbn [obind] in H|discriminate H]
  | H : (let _ := _ in _) = _ |- _ => cbv zeta in H
  end;
  match goal with H : Some _ = Some _ |- _ => injection H as <- end.
Ltac literal_kept :=
  let ls := fresh in let b := fresh in let H := fresh in intros ? ? ls b ? H; destruct (literal_name ls) as [n|]; [|discriminate]; injection H as <-; assumption.
Lemma helper_carries : carries helper_arg helper_parts.
Proof.
  apply (nesting_carries _ _ _ _ _ _ _ tidy_helper); [exact helper_of_parts|literal_kept|].
  intros a E. injection E as <-. split; reflexivity.
Qed.
Lemma getter_carries : carries accessor_arg getter_parts.
Proof.
  unfold accessor_arg.
  eapply (nesting_carries _ (helper_table ++ [("clone", Alone); ("copy", Alone); ("as_ref", Alone)])
    (helper_rules ++ [Given "clone" "copy"; Given "clone" "as_ref"; Given "copy" "as_ref"])); [reflexivity| |literal_kept|].
  - parts. unfold getter_parts. simpl. match goal with H : helper_of _ = Some _ |- _ => pose proof (helper_of_parts _ _ H) end.
    match goal with H : ensure (accessor_exclusives_ok ?a) = Some _ |- _ => unfold ensure, accessor_exclusives_ok in H; simpl in H end.
    
    match goal with H : (if ?e && _ then _ else _) = Some _ |- _ => destruct e; [cbn [andb] in H|discriminate H] end.
    destruct b, b0, b1; simpl in *; try discriminate; intuition.
  - intros a E. injection E as <-. repeat split; reflexivity.
Qed.
Lemma setter_carries : carries setter_arg setter_parts.
Proof.
  unfold setter_arg. eapply (nesting_carries _ (helper_table ++ [("into", Assigned)]) helper_rules); [reflexivity| |literal_kept|].
  - parts. unfold setter_parts. simpl. match goal with H : helper_of _ = Some _ |- _ => pose proof (helper_of_parts _ _ H) end. auto.
  - intros a E. injection E as <-. repeat split; reflexivity.
Qed.
Lemma builder_carries b : carries (builder_arg b) builder_parts.
Proof.
  unfold builder_arg. eapply (nesting_carries _ (helper_table ++ builder_table ++ [("opt_in", Switch); ("post_build", Name); ("error", TwoPaths)])
    helper_rules); [reflexivity| |literal_kept|].
  - parts. unfold builder_parts. simpl. match goal with H : helper_of _ = Some _ |- _ => pose proof (helper_of_parts _ _ H) end. auto.
  - intros a E. injection E as <-. repeat split; reflexivity.
Qed.
Lemma serde_carries : carries serde_arg serde_parts.
Proof.
  unfold serde_arg. eapply (nesting_carries _ serde_table [On "public" "private"]); [reflexivity| |literal_kept|].
  - parts. unfold serde_parts. simpl. auto.
  - intros a E. injection E as <-. repeat split; reflexivity.
Qed.

(** ** The struct and the field *)
Lemma struct_stored ft ss s : struct_as ft ss s -> exists seen, stored ss seen /\ sargs_of seen = Some s.
Proof.
  intros (ts & A & H). destruct (read_struct_inv _ _ _ H) as (cs' & items & seen & A' & AS & C & S & _ & _).
  rewrite <- (arguments_fun _ _ _ A A') in AS. exists seen. split; [|exact S].
  destruct (collect_no_lits _ _ _ C) as [_ NL]. rewrite <- NL in C. apply (stored_items _ _ _ _ _ _ tidy_struct AS C).
Qed.
(** What a bare attribute does not touch. *)
Definition touched (k : hkind) : bool := match k with KLazy | KClearer | KPredicate => true | _ => false end.
Lemma field_stored ft x f : read_as ft x f -> exists seen f0, stored (so_args x) seen /\
  (exists i v t a, field_of i v t a seen = Some f0) /\
  (forall k, (touched k = true -> ~ bare x) -> f_get_helper f k = f_get_helper f0 k) /\
  f_accessor f = f_accessor f0 /\ f_setter f = f_setter f0 /\ f_builder f = f_builder f0 /\ f_public f = f_public f0 /\
  f_private f = f_private f0 /\ f_into f = f_into f0 /\ f_clone f = f_clone f0 /\ f_copy f = f_copy f0 /\
  f_default f = f_default f0 /\ f_serde f = f_serde f0 /\ f_skip f = f_skip f0.
Proof.
  intros (A & i & v & t & a & H). destruct (field_parts ft i v t a x f H A) as (items & seen & f0 & AS & C & S & E).
  exists seen, f0. destruct (collect_no_lits _ _ _ C) as [_ NL].
  pose proof C as C'. rewrite <- NL in C'. pose proof (stored_items _ _ _ _ _ _ tidy_field AS C') as ST.
  split; [exact ST|]. split; [exists i, v, t, a; exact S|]. split.
  - intros k T. rewrite E. unfold marked. destruct (existsb is_word (so_attrs x)) eqn:W; [|reflexivity].
    unfold mark_implicitly. destruct (f_lazy f0) as [h|] eqn:LZ; [reflexivity|].
    assert (B : bare x).
    { split.
      - apply existsb_exists in W. destruct W as ([| |] & J & W); try discriminate. exact J.
      - rewrite (stored_given _ _ "lazy" ST eq_refl).
        assert (O : opt_arg seen "lazy" helper_arg = Some (f_lazy f0)) by apply (field_of_inv _ _ _ _ _ _ S).
        unfold opt_arg in O. destruct (assoc "lazy" seen); [|congruence]. destruct (helper_arg s); [|discriminate].
        rewrite LZ in O. discriminate. }
    destruct k; try reflexivity; exfalso; apply T; try exact B; reflexivity.
  - rewrite E. unfold marked, mark_implicitly. destruct (existsb is_word (so_attrs x)), (f_lazy f0); repeat split.
Qed.
