(** Proofs for C77: names, and the setters of the builder. *)
From Coq Require Import List Bool String Ascii.
From Verif Require Import ArgsModel CtxModel ArgsSpec TokenSpec ParseInput ParseModel ParseSpec ParseFacts ParseForms GrammarSpec GrammarProofs
  RustAst CommonGen PlainGen SyncGen StructGen CodegenSpec CodegenStruct WrittenSpec WrittenProofs.
From Verif Require AttrModel AttrProofs.
Import ListNotations.
Open Scope string_scope.
Open Scope list_scope.

(** ** Literals *)
Lemma text_lit t s : text_is t [TLit s] <-> lit_str s = Some t.
Proof.
  split.
  - intros [W|[-> E]]; [|injection E as ->; reflexivity].
    destruct (string_for_lit _ _ W) as (s' & P & L & _). simpl in P. injection P as <-. exact L.
  - intros L. destruct (String.string_dec t "") as [->|N].
    + destruct (lit_str_quote s "" L) as (r & -> & E). destruct r as [|q r]; [right; split; reflexivity|].
      destruct r as [|q' r]; [|discriminate]. left. exists q. reflexivity.
    + left. apply (string_lit_for [TLit s] s t); [reflexivity|exact L|exact N].
Qed.
Lemma text_shape t b : text_is t b -> exists s, b = [TLit s] /\ lit_str s = Some t.
Proof.
  intros W. assert (S : exists s, b = [TLit s]).
  { destruct W as [(q & ->)|[_ ->]]; eexists; reflexivity. }
  destruct S as (s & ->). exists s. split; [reflexivity|]. apply text_lit, W.
Qed.
Lemma lit_given bs items s : all_some parse_nested bs = Some items -> In [TLit s] bs -> In s (literals items).
Proof.
  intros AS I. destruct (all_some_In _ _ _ _ AS I) as (y & J & P). simpl in P. injection P as <-. apply literals_In, J.
Qed.
Lemma lit_taken bs items s t : all_some parse_nested bs = Some items -> In s (literals items) -> lit_str s = Some t ->
  In [TLit s] bs.
Proof.
  intros AS I L. apply literals_In in I. destruct (all_some_In_r _ _ _ _ AS I) as (b & J & P).
  rewrite <- (lit_string b s t (nested_literal _ _ P) L). exact J.
Qed.
Lemma no_text bs items : all_some parse_nested bs = Some items -> literals items = [] -> forall b, In b bs -> ~ a_string b.
Proof.
  intros AS E b I W. destruct (a_string_lit _ W) as (s & t & -> & _). apply (lit_given _ _ _ AS) in I. rewrite E in I. destruct I.
Qed.
Lemma one_text bs items s u : all_some parse_nested bs = Some items -> literals items = [s] -> lit_str s = Some u ->
  forall t, (exists b, In b bs /\ text_is t b) <-> t = u.
Proof.
  intros AS E L t. split.
  - intros (b & I & W). destruct (text_shape _ _ W) as (s' & -> & L'). apply (lit_given _ _ _ AS) in I. rewrite E in I.
    destruct I as [<-|[]]. congruence.
  - intros ->. exists [TLit s]. split; [|apply text_lit, L]. apply (lit_taken _ items _ u AS); [rewrite E; left; reflexivity|exact L].
Qed.

(** ** [rename("t")] and [name("t")] *)
Lemma string_named m sa : meta_ok m -> string_arg m = Some sa -> forall t, strarg_value sa = Some t <-> text_in t (rest m).
Proof.
  intros M H t. unfold string_arg, nesting in H. destruct m as [p|p d ts|p v]; [discriminate| |discriminate].
  unfold extract_literals in H. destruct (parse_meta_list ts) as [items|] eqn:P; [|discriminate]. cbn [obind] in H.
  destruct (accepted_arguments ts items P) as (bs & AR & AS). unfold value_from_list in H.
  destruct (collect ["off"] [] (non_literals items)) as [seen|] eqn:C; [|discriminate]. cbn [obind] in H.
  destruct (flag seen "off") as [off|] eqn:O; [|discriminate]. cbn [obind] in H.
  destruct (linked ["off"] [("off", Alone)] [] tidy_off bs items seen AS C) as (_ & L1 & _ & L3).
  assert (OF : off = true <-> exists b, In b bs /\ argument_for "off" b []).
  { rewrite (given_flag _ _ _ O). split.
    - intros N. apply not_none in N. destruct N as (m & E). destruct (L1 _ _ E) as (b & I & _ & X). exists b. split; [exact I|].
      unfold flag in O. rewrite E in O. destruct m; try discriminate. exact X.
    - intros (b & I & X). destruct (L3 "off" _ _ eq_refl I X) as (m & E & _). congruence. }
  assert (OF' : off = false <-> forall b, In b bs -> ~ argument_for "off" b []).
  { rewrite <- not_true_iff_false, OF. split; [intros N b I X; apply N; eauto|intros N (b & I & X); exact (N b I X)]. }
  simpl rest. destruct (literals items) as [|s [|s' ls]] eqn:L; [| |discriminate].
  - injection H as <-. unfold strarg_value. simpl. split; [destruct off; discriminate|].
    intros (d' & ts' & bs' & E & A' & _ & b & I & W). injection E as <- <-. rewrite <- (arguments_fun _ _ _ AR A') in I.
    destruct (text_shape _ _ W) as (s & -> & _). apply (lit_given _ _ _ AS) in I. rewrite L in I. destruct I.
  - destruct (lit_str s) as [u|] eqn:U; [|discriminate]. injection H as <-. unfold strarg_value. simpl.
    pose proof (one_text bs items s u AS L U t) as T. split.
    + destruct off; [discriminate|]. intros E. injection E as ->. exists d, ts, bs. split; [reflexivity|]. split; [exact AR|].
      split; [apply OF'; reflexivity|]. apply T. reflexivity.
    + intros (d' & ts' & bs' & E & A' & N & W). injection E as <- <-. rewrite <- (arguments_fun _ _ _ AR A') in N, W.
      apply OF' in N. apply T in W. subst. reflexivity.
Qed.

(** ** The names of helpers *)
Definition value_of (n : option strarg) : option string := match n with Some sa => strarg_value sa | None => None end.
Lemma value_of_helper h : helper_name_of h = value_of (h_name h).
Proof. reflexivity. Qed.
Definition calls {A} (f : smeta -> option A) (nm : A -> option strarg) : Prop :=
  forall m a, meta_ok m -> f m = Some a -> forall t, value_of (nm a) = Some t <-> name_in t (rest m).
Lemma nesting_calls {A} known l rules (k : list (string * smeta) -> option A) kw st nm :
  tidy known l rules = true ->
  (forall seen a, k seen = Some a -> opt_arg seen "name" string_arg = Some (nm a)) ->
  (forall a ls b, st a ls = Some b -> exists n, literal_name ls = Some n /\ nm b = Some n) ->
  (forall a, kw = Some a -> nm a = None) ->
  calls (nesting kw (fun items => get? seen := collect known [] items in k seen) no_value st) nm.
Proof.
  intros T HK HS HW m a M H t. destruct m as [p|p d ts|p v]; simpl in *; [| |discriminate].
  - rewrite (HW a H). simpl. split; [discriminate|]. intros (d & ts & bs & E & _). discriminate.
  - unfold extract_literals in H. destruct (parse_meta_list ts) as [items|] eqn:P; [|discriminate]. cbn [obind] in H.
    destruct (accepted_arguments ts items P) as (bs & AR & AS).
    destruct (collect known [] (non_literals items)) as [seen|] eqn:C; [|discriminate]. cbn [obind] in H.
    destruct (k seen) as [x|] eqn:E; [|discriminate]. cbn [obind] in H.
    destruct (linked known l rules T bs items seen AS C) as (PR & L1 & _ & L3).
    destruct (literals items) as [|s ls] eqn:L.
    + injection H as <-. pose proof (no_text _ _ AS L) as NT. pose proof (HK _ _ E) as NM. unfold opt_arg in NM.
      destruct (assoc "name" seen) as [m|] eqn:Q.
      * destruct (string_arg m) as [sa|] eqn:SA; [|discriminate]. injection NM as NM. rewrite <- NM. simpl.
        rewrite (string_named m sa (proj1 (PR _ _ Q)) SA t). destruct (L1 _ _ Q) as (b & I & _ & X). split.
        -- intros W. exists d, ts, bs. split; [reflexivity|]. split; [exact AR|]. right. split; [exact NT|]. exists b, (rest m). auto.
        -- intros (d' & ts' & bs' & Y & A' & W). injection Y as <- <-. rewrite <- (arguments_fun _ _ _ AR A') in W.
           destruct W as [(b' & I' & W)|(_ & b' & q & I' & X' & W)].
           ++ exfalso. apply (NT _ I'). destruct (text_shape _ _ W) as (s & -> & LS).
              destruct (lit_str_quote _ _ LS) as (r & -> & _). exists r. reflexivity.
           ++ destruct (L3 "name" b' q eq_refl I' X') as (m' & Q' & <-). rewrite Q in Q'. injection Q' as <-. exact W.
      * injection NM as NM. rewrite <- NM. simpl. split; [discriminate|].
        intros (d' & ts' & bs' & Y & A' & W). injection Y as <- <-. rewrite <- (arguments_fun _ _ _ AR A') in W.
        destruct W as [(b' & I' & W)|(_ & b' & q & I' & X' & W)].
        -- exfalso. apply (NT _ I'). destruct (text_shape _ _ W) as (s & -> & LS).
           destruct (lit_str_quote _ _ LS) as (r & -> & _). exists r. reflexivity.
        -- destruct (L3 "name" b' q eq_refl I' X') as (m' & Q' & _). congruence.
    + destruct (HS _ _ _ H) as (n & LN & NM). rewrite NM. simpl. destruct ls as [|s' ls]; [|discriminate].
      simpl in LN. destruct (lit_str s) as [u|] eqn:U; [|discriminate]. injection LN as <-.
      pose proof (one_text bs items s u AS L U) as TX. unfold strarg_value. simpl. split.
      * intros Y. injection Y as <-. exists d, ts, bs. split; [reflexivity|]. split; [exact AR|]. left. apply TX. reflexivity.
      * intros (d' & ts' & bs' & Y & A' & W). injection Y as <- <-. rewrite <- (arguments_fun _ _ _ AR A') in W.
        destruct W as [W|(N & _)]; [apply TX in W; congruence|]. exfalso.
        destruct (proj2 (TX u) eq_refl) as (b & I & W). apply (N b I). destruct (text_shape _ _ W) as (s1 & -> & LS).
        destruct (lit_str_quote _ _ LS) as (r & -> & _). exists r. reflexivity.
Qed.
Lemma helper_named seen h : helper_of seen = Some h -> opt_arg seen "name" string_arg = Some (h_name h).
Proof.
  unfold helper_of. destruct (opt_arg seen "name" string_arg) as [n|]; [cbn [obind]|discriminate].
  repeat match goal with |- obind ?x _ = Some _ -> _ => destruct x; [cbn [obind]|discriminate] end.
  intros E. injection E as <-. reflexivity.
Qed.
Lemma with_named {A} seen (k : helper -> option A) (base : A -> helper) :
  (forall h a, k h = Some a -> base a = h) -> forall a, (get? h := helper_of seen in k h) = Some a ->
  opt_arg seen "name" string_arg = Some (h_name (base a)).
Proof.
  intros H a E. destruct (helper_of seen) as [h|] eqn:O; [cbn [obind] in E|discriminate].
  rewrite (H h a E). apply (helper_named _ _ O).
Qed.
Ltac by_literal :=
  let a := fresh in let ls := fresh in let b := fresh in let H := fresh in
  intros a ls b H; destruct (literal_name ls) as [n|]; [|discriminate]; injection H as <-; exists n; split; reflexivity.
Ltac by_word := let a := fresh in let Q := fresh in intros a Q; injection Q as <-; reflexivity.
Lemma helper_calls : calls helper_arg h_name.
Proof.
  apply (nesting_calls _ _ _ _ _ _ h_name tidy_helper); [|by_literal|by_word]. exact helper_named.
Qed.
Lemma getter_calls : calls accessor_arg (fun a => h_name (a_base a)).
Proof.
  unfold accessor_arg.
  eapply (nesting_calls _ (helper_table ++ [("clone", Alone); ("copy", Alone); ("as_ref", Alone)])
    (helper_rules ++ [Given "clone" "copy"; Given "clone" "as_ref"; Given "copy" "as_ref"])); [reflexivity| |by_literal|by_word].
  intros seen. apply with_named. tail.
Qed.
Lemma setter_calls : calls setter_arg (fun a => h_name (st_base a)).
Proof.
  unfold setter_arg. eapply (nesting_calls _ (helper_table ++ [("into", Assigned)]) helper_rules); [reflexivity| |by_literal|by_word].
  intros seen. apply with_named. tail.
Qed.
Lemma builder_calls b : calls (builder_arg b) (fun a => h_name (b_base a)).
Proof.
  unfold builder_arg. eapply (nesting_calls _ (helper_table ++ builder_table ++ [("opt_in", Switch); ("post_build", Name); ("error", TwoPaths)])
    helper_rules); [reflexivity| |by_literal|by_word].
  intros seen. apply with_named. tail.
Qed.

Lemma named_seen {A} known seen cs n (f : smeta -> option A) nm (o : option A) : proper known seen ->
  (forall m, assoc n seen = Some m -> exists c, In c cs /\ argument_for n c (rest m)) ->
  (forall c r, In c cs -> argument_for n c r -> exists m, assoc n seen = Some m /\ rest m = r) ->
  calls f nm -> opt_arg seen n f = Some o ->
  forall t, match o with Some a => value_of (nm a) | None => None end = Some t <-> named n t cs.
Proof.
  intros P L1 L3 F O t. unfold opt_arg in O. destruct (assoc n seen) as [m|] eqn:E.
  - destruct (f m) as [a|] eqn:X; [|discriminate]. injection O as <-. rewrite (F m a (proj1 (P _ _ E)) X t). split.
    + intros W. destruct (L1 m eq_refl) as (c & I & Y). exists c, (rest m). auto.
    + intros (c & r & I & Y & W). destruct (L3 c r I Y) as (m' & E' & <-). injection E' as <-. exact W.
  - injection O as <-. split; [discriminate|]. intros (c & r & I & Y & _). destruct (L3 c r I Y) as (m & E' & _). discriminate.
Qed.
Definition name_of (o : option helper) : option string := obind o helper_name_of.
Ltac call P L1 L3 n := first
  [ refine (named_seen _ _ _ n helper_arg h_name _ P (L1 n) (fun c r => L3 n c r eq_refl) helper_calls _); eassumption
  | refine (named_seen _ _ _ n accessor_arg _ _ P (L1 n) (fun c r => L3 n c r eq_refl) getter_calls _); eassumption
  | refine (named_seen _ _ _ n setter_arg _ _ P (L1 n) (fun c r => L3 n c r eq_refl) setter_calls _); eassumption
  | refine (named_seen _ _ _ n (builder_arg _) _ _ P (L1 n) (fun c r => L3 n c r eq_refl) (builder_calls _) _); eassumption ].
Lemma struct_named ft ts s cs k : read_struct ft ts = Some s -> arguments cs ts ->
  forall t, name_of (s_get_helper s k) = Some t <-> named (helper_word k) t cs.
Proof.
  intros H A. destruct (read_struct_inv _ _ _ H) as (cs' & items & seen & A' & AS & C & S & _ & _).
  rewrite (arguments_fun _ _ _ A A'). pose proof (seen_proper _ _ _ _ _ _ tidy_struct AS C) as P.
  destruct (links _ _ _ _ _ _ tidy_struct AS C) as [L1 L3].
  pose proof (sargs_of_inv _ _ S) as Q. repeat match goal with X : _ /\ _ |- _ => destruct X end.
  assert (X : forall t, match k with
    | KAccessor => match s_accessor s with Some a => value_of (h_name (a_base a)) | None => None end
    | KAccessorMut => match s_accessor_mut s with Some a => value_of (h_name a) | None => None end
    | KBuilder => match s_builder s with Some a => value_of (h_name (b_base a)) | None => None end
    | KClearer => match s_clearer s with Some a => value_of (h_name a) | None => None end
    | KLazy => match s_lazy s with Some a => value_of (h_name a) | None => None end
    | KPredicate => match s_predicate s with Some a => value_of (h_name a) | None => None end
    | KReader => match s_reader s with Some a => value_of (h_name a) | None => None end
    | KSetter => match s_setter s with Some a => value_of (h_name (st_base a)) | None => None end
    | KWriter => match s_writer s with Some a => value_of (h_name a) | None => None end
    end = Some t <-> named (helper_word k) t cs').
  { destruct k; simpl helper_word; match goal with |- forall t, _ <-> named ?n t _ => call P L1 L3 n end. }
  intros t. rewrite <- X. unfold name_of. destruct k; simpl; unfold acc_base, set_base, bld_base;
    match goal with |- obind ?o _ = _ <-> _ => match o with option_map _ ?z => destruct z | ?z => destruct z end; reflexivity end.
Qed.

Section Field.
  Variables (ft : features) (x : source) (f : field).
  Hypothesis R : read_as ft x f.

  (** A bare attribute takes the names of three helpers away. *)
  Definition unbared (k : hkind) : Prop := In (helper_word k) bare_words -> ~ bare x.
  Lemma field_named k : unbared k -> forall t, name_of (f_get_helper f k) = Some t <-> named (helper_word k) t (so_args x).
  Proof.
    intros U. destruct R as (A & i & v & ty & a & H). destruct (field_parts ft i v ty a x f H A) as (items & seen & f0 & AS & C & S & E).
    pose proof (seen_proper _ _ _ _ _ _ tidy_field AS C) as P.
    destruct (links _ _ _ _ _ _ tidy_field AS C) as [L1 L3].
    pose proof (on_linked _ _ _ (so_args x) items seen "lazy" tidy_field AS C eq_refl) as [_ GL].
    pose proof (field_of_inv _ _ _ _ _ _ S) as Q. repeat match goal with X : _ /\ _ |- _ => destruct X end.
    assert (G : f_get_helper f k = f_get_helper f0 k).
    { rewrite E. unfold marked. destruct (existsb is_word (so_attrs x)) eqn:W; [|reflexivity].
      unfold mark_implicitly. destruct (f_lazy f0) as [h|] eqn:LZ; [reflexivity|].
      assert (B : bare x).
      { split.
        - apply existsb_exists in W. destruct W as ([| |] & J & W); try discriminate. exact J.
        - rewrite GL. match goal with O : opt_arg seen "lazy" _ = _ |- _ => rename O into OL end.
          unfold opt_arg in OL. destruct (assoc "lazy" seen); [|congruence]. destruct (helper_arg s); discriminate. }
      destruct k; try reflexivity; exfalso; apply U; try exact B; simpl; tauto. }
    rewrite G.
    assert (X : forall t, match k with
      | KAccessor => match f_accessor f0 with Some a => value_of (h_name (a_base a)) | None => None end
      | KAccessorMut => match f_accessor_mut f0 with Some a => value_of (h_name a) | None => None end
      | KBuilder => match f_builder f0 with Some a => value_of (h_name (b_base a)) | None => None end
      | KClearer => match f_clearer f0 with Some a => value_of (h_name a) | None => None end
      | KLazy => match f_lazy f0 with Some a => value_of (h_name a) | None => None end
      | KPredicate => match f_predicate f0 with Some a => value_of (h_name a) | None => None end
      | KReader => match f_reader f0 with Some a => value_of (h_name a) | None => None end
      | KSetter => match f_setter f0 with Some a => value_of (h_name (st_base a)) | None => None end
      | KWriter => match f_writer f0 with Some a => value_of (h_name a) | None => None end
      end = Some t <-> named (helper_word k) t (so_args x)).
    { destruct k; simpl helper_word; match goal with |- forall t, _ <-> named ?n t _ => call P L1 L3 n end. }
    intros t. rewrite <- X. unfold name_of. destruct k; simpl; unfold acc_base, set_base, bld_base;
      match goal with |- obind ?o _ = _ <-> _ => match o with option_map _ ?z => destruct z | ?z => destruct z end; reflexivity end.
  Qed.
  Lemma field_renamed t : f_base_name_of f = Some t <-> renamed t (so_args x).
  Proof.
    destruct R as (A & i & v & ty & a & H). destruct (field_parts ft i v ty a x f H A) as (items & seen & f0 & AS & C & S & E).
    pose proof (seen_proper _ _ _ _ _ _ tidy_field AS C) as P.
    destruct (links _ _ _ _ _ _ tidy_field AS C) as [L1 L3].
    assert (O : opt_arg seen "rename" string_arg = Some (f_base_name f0)) by (apply (field_of_inv _ _ _ _ _ _ S)).
    assert (G : f_base_name f = f_base_name f0).
    { rewrite E. unfold marked, mark_implicitly. destruct (existsb is_word (so_attrs x)), (f_lazy f0); reflexivity. }
    unfold f_base_name_of. rewrite G. unfold opt_arg in O. destruct (assoc "rename" seen) as [m|] eqn:Q.
    - destruct (string_arg m) as [sa|] eqn:X; [|discriminate]. injection O as <-.
      rewrite (string_named m sa (proj1 (P _ _ Q)) X t). split.
      + intros W. destruct (L1 _ _ Q) as (c & I & Y). exists c, (rest m). auto.
      + intros (c & r & I & Y & W). destruct (L3 "rename" c r eq_refl I Y) as (m' & E' & <-). rewrite Q in E'. injection E' as <-. exact W.
    - injection O as <-. split; [discriminate|]. intros (c & r & I & Y & _). destruct (L3 "rename" c r eq_refl I Y) as (m & E' & _). congruence.
  Qed.
  Lemma field_called i v ty a : read_field ft i v ty a (so_attrs x) = Some f -> f_ident f = i.
  Proof.
    intros H. destruct R as (A & _). destruct (field_parts ft i v ty a x f H A) as (items & seen & f0 & AS & C & S & E).
    assert (G : f_ident f = f_ident f0).
    { rewrite E. unfold marked, mark_implicitly. destruct (existsb is_word (so_attrs x)), (f_lazy f0); reflexivity. }
    rewrite G. unfold field_of in S.
    repeat match type of S with obind ?e _ = _ => destruct e; [cbn [obind] in S|discriminate] end.
    injection S as <-. reflexivity.
  Qed.
End Field.

(** ** Whole names *)
Lemma or_usual_unwrap (P : string -> Prop) o d : (forall t, o = Some t <-> P t) ->
  forall t, or_usual P d t <-> t = unwrap_or o d.
Proof.
  intros E t. unfold or_usual. destruct o as [u|]; simpl.
  - split.
    + intros [W|[N _]]; [apply E in W; congruence|]. exfalso. apply (N u), E. reflexivity.
    + intros ->. left. apply E. reflexivity.
  - split.
    + intros [W|[_ ->]]; [apply E in W; discriminate|reflexivity].
    + intros ->. right. split; [|reflexivity]. intros u W. apply E in W. discriminate.
Qed.
Section Context.
  Variables (ft : features) (c : sctx) (ss : list (list tok)).
  Hypothesis HS : struct_as ft ss (c_args c).
  Variables (x : source) (f : field).
  Hypothesis R : read_as ft x f.

  Lemma w_name k : unbared x k -> forall t, name_for ss x (f_ident f) k t <-> t = helper_name c f k.
  Proof.
    intros U t. pose proof (field_named ft x f R k U) as FN.
    destruct HS as (ts & A & H). pose proof (struct_named ft ts _ ss k H A) as SN.
    pose proof (or_usual_unwrap _ _ (usual_prefix k) SN) as PR.
    pose proof (or_usual_unwrap _ _ (f_ident f) (field_renamed ft x f R)) as BR.
    assert (UP : unwrap_or (or_else (name_of (s_get_helper (c_args c) k)) (default_prefix k)) "" =
                 unwrap_or (name_of (s_get_helper (c_args c) k)) (usual_prefix k)).
    { destruct (name_of (s_get_helper (c_args c) k)); [reflexivity|]. destruct k; reflexivity. }
    assert (US : unwrap_or (default_suffix k) "" = usual_suffix k) by (destruct k; reflexivity).
    unfold helper_name, helper_base_name.
    change (CtxModel.obind (s_get_helper (c_args c) k) helper_name_of) with (name_of (s_get_helper (c_args c) k)).
    change (CtxModel.obind (f_get_helper f k) helper_name_of) with (name_of (f_get_helper f k)).
    rewrite UP, US.
    set (made := ((unwrap_or (name_of (s_get_helper (c_args c) k)) (usual_prefix k)) ++ unwrap_or (f_base_name_of f) (f_ident f) ++ usual_suffix k)%string).
    assert (M : (forall u, u <> "" -> ~ named (helper_word k) u (so_args x)) -> forall u, name_for ss x (f_ident f) k u <-> u = made).
    { intros N u. split.
      - intros W. destruct W as [u NE W|p b _ Wp Wb]; [destruct (N u NE W)|]. apply PR in Wp. apply BR in Wb. subst. reflexivity.
      - intros ->. apply name_made; [exact N|apply PR; reflexivity|apply BR; reflexivity]. }
    destruct (name_of (f_get_helper f k)) as [n|] eqn:E.
    - destruct (String.eqb_spec n "") as [->|NE].
      + apply M. intros u NE W. apply FN in W. congruence.
      + split.
        * intros W. destruct W as [u _ W|p b N _ _]; [apply FN in W; congruence|].
          exfalso. apply (N n NE), FN. reflexivity.
        * intros ->. apply name_own; [exact NE|]. apply FN. reflexivity.
    - apply M. intros u _ W. apply FN in W. discriminate.
  Qed.
  Theorem w_method_name ms m : field_methods c f = GOk ms -> In m ms ->
    forall t, name_for ss x (f_ident f) (m_kind m) t <-> t = m_name m.
  Proof.
    intros M I. destruct (field_decls c f ms m M I) as (N & _ & _ & W). rewrite N. apply w_name.
    intros B BR.
    assert (V : forall n, In n bare_words -> asks ss x n False -> False).
    { intros n J [[_ [_ K]]|[K _]]; unfold field_word in K; cbn [fst snd] in K; tauto. }
    apply (V _ B). destruct (m_kind m); simpl in W; try discriminate; simpl in B;
      try (exfalso; repeat (destruct B as [B|B]; try discriminate); exact B).
    - apply (w_clearer ft c ss HS x f R). exact W.
    - apply (w_predicate ft c ss HS x f R). exact W.
  Qed.

  Lemma w_opt_in : is_builder_opt_in c = true <-> opt_in ss.
  Proof.
    destruct HS as (ts & A & H). destruct (read_struct_inv _ _ _ H) as (cs' & items & seen & A' & AS & C & S & _ & _).
    rewrite <- (arguments_fun _ _ _ A A') in AS. clear A' cs'. pose proof (seen_proper _ _ _ _ _ _ tidy_struct AS C) as P.
    destruct (links _ _ _ _ _ _ tidy_struct AS C) as [L1 L3].
    assert (O : opt_arg seen "builder" (builder_arg true) = Some (s_builder (c_args c))) by (apply (sargs_of_inv _ _ S)).
    unfold is_builder_opt_in, opt_in. unfold opt_arg in O. destruct (assoc "builder" seen) as [m|] eqn:Q.
    - destruct (builder_arg true m) as [b|] eqn:B; [|discriminate]. injection O as <-.
      assert (K : on (b_opt_in b) = true <-> exists d us bs, rest m = [TGroup d us] /\ arguments bs us /\ on_in "opt_in" bs).
      { pose proof (proj1 (P _ _ Q)) as M. clear - B M. unfold builder_arg, nesting in B. destruct m as [p|p d us|p v]; [| |discriminate].
        - injection B as <-. simpl. split; [discriminate|]. intros (d & us & bs & E & _). discriminate.
        - unfold extract_literals in B. destruct (parse_meta_list us) as [its|] eqn:PM; [|discriminate]. cbn [obind] in B.
          destruct (accepted_arguments us its PM) as (bs & AR & AB).
          destruct (collect (helper_names ++ builder_names) [] (non_literals its)) as [sn|] eqn:CB; [|discriminate]. cbn [obind] in B.
          assert (T : tidy (helper_names ++ builder_names) (helper_table ++ builder_table ++ [("opt_in", Switch); ("post_build", Name); ("error", TwoPaths)]) helper_rules = true) by reflexivity.
          destruct (linked _ _ _ T bs its sn AB CB) as (PR & M1 & _ & M3).
          assert (O : opt_arg sn "opt_in" bool_arg = Some (b_opt_in b)).
          { revert B. repeat match goal with
              | |- obind (obind ?e _) _ = _ -> _ => destruct e eqn:?; [cbn [obind]|discriminate]
              | |- match literals _ with _ => _ end = _ -> _ => fail 1
              end.
            destruct (opt_arg sn "opt_in" bool_arg); cbn [obind]; [|intros B; exfalso; revert B; repeat match goal with |- obind ?e _ = _ -> _ => destruct e; cbn [obind] end; discriminate].
            repeat match goal with |- context [obind ?e _] => destruct e; cbn [obind]; try discriminate end;
            (destruct (literals its) as [|s ls]; [intros E; injection E as <-; reflexivity|]);
            (destruct (literal_name (s :: ls)); [|discriminate]); intros E; injection E as <-; reflexivity. }
          pose proof (on_opt _ sn "opt_in" bool_arg negb _ PR bool_honest O) as ON.
          assert (ON' : on (b_opt_in b) = true <-> on_seen "opt_in" sn).
          { rewrite <- ON. unfold on. destruct (b_opt_in b) as [[]|]; reflexivity. }
          rewrite ON'. simpl rest. split.
          + intros (m & E & Y). destruct (M1 _ _ E) as (c0 & I & _ & X). exists d, us, bs. split; [reflexivity|]. split; [exact AR|].
            exists c0, (rest m). auto.
          + intros (d' & us' & bs' & E & AR' & c0 & r & I & X & Y). injection E as <- <-. rewrite <- (arguments_fun _ _ _ AR AR') in I.
            destruct (M3 "opt_in" c0 r eq_refl I X) as (m & E & <-). exists m. auto. }
      rewrite K. split.
      + intros (d & us & bs & E & AR & Y). destruct (L1 _ _ Q) as (c0 & I & X). rewrite E in X. exists c0, d, us, bs. auto.
      + intros (c0 & d & us & bs & I & X & AR & Y). destruct (L3 "builder" c0 _ eq_refl I X) as (m' & Q' & E). rewrite Q in Q'. injection Q' as <-.
        exists d, us, bs. auto.
    - injection O as <-. split; [discriminate|]. intros (c0 & d & us & bs & I & X & _). destruct (L3 "builder" c0 _ eq_refl I X) as (m & E & _). congruence.
  Qed.
  Lemma w_forced : forced_builder f = true <-> exists t, named "builder" t (so_args x).
  Proof.
    pose proof (field_named ft x f R KBuilder ltac:(intros B; simpl in B; intuition discriminate)) as N. simpl helper_word in N.
    assert (E : forced_builder f = is_some (name_of (f_get_helper f KBuilder))).
    { unfold forced_builder, name_of. simpl. unfold bld_base. destruct (f_builder f); reflexivity. }
    rewrite E. destruct (name_of (f_get_helper f KBuilder)) as [t|]; simpl; split; try discriminate; try reflexivity.
    - intros _. exists t. apply N. reflexivity.
    - intros (t & W). apply N in W. discriminate.
  Qed.
  Lemma w_builds : (exists m, field_builder (cfg_of c f) = Some m) /\ f_is_skipped f = false <-> settable ss x.
  Proof.
    unfold settable, field_builder, f_is_skipped. simpl.
    assert (N : needs_builder c f = true <-> decide [word "builder" (so_args x)] (on_in "builder" ss /\ ~ opt_in ss)).
    { unfold needs_builder.
      pose proof (f_plain_word ft x f R "builder" f_needs_builder ltac:(simpl; tauto)) as W.
      pose proof (s_word ft c ss HS "builder" s_needs_builder ltac:(simpl; tauto)) as V.
      pose proof (on_given "builder" ss) as G. pose proof w_opt_in as O.
      unfold heeds, word in *. cbn [fst snd] in *. simpl.
      destruct (f_needs_builder f) as [[]|]; simpl; try (intuition discriminate).
      destruct (s_needs_builder (c_args c)) as [[]|]; simpl; [|intuition discriminate|intuition discriminate].
      rewrite negb_true_iff, <- not_true_iff_false, O. tauto. }
    rewrite <- (f_skipped ft x f R), <- w_forced. destruct (f_skip f).
    - split; [intros [_ E]; discriminate|]. intros [E _]. contradiction (E eq_refl).
    - simpl in N. rewrite <- N. destruct (forced_builder f), (needs_builder c f); simpl; split;
        try (intros _; split; [eexists; reflexivity|reflexivity]); try (intros _; split; [discriminate|tauto]);
        try (intros [(m & E) _]; discriminate); intros [_ [E|E]]; discriminate.
  Qed.
  Theorem w_settable : NoDup (map f_ident (c_input_fields c)) -> In f (c_input_fields c) ->
    ((exists m, In (f_ident f, m) (builder_setters c)) <-> settable ss x).
  Proof.
    intros D I. rewrite <- w_builds. unfold builder_setters. split.
    - intros (m & J). apply in_flat_map in J. destruct J as (g & G & J).
      unfold builder_input in G. apply filter_In in G. destruct G as [G K]. apply negb_true_iff in K.
      destruct (field_builder (cfg_of c g)) as [m'|] eqn:B; [|destruct J]. destruct J as [J|[]]. injection J as J <-.
      unfold all_fields in G. apply in_app_or in G. destruct G as [G|G].
      + exfalso. unfold extra_fields in G. destruct (s_is_ref_counted (c_args c)); [|destruct G].
        destruct (myself_field c); [|destruct G]. destruct G as [<-|[]]. discriminate.
      + assert (E : g = f).
        { revert D I G J. clear. induction (c_input_fields c) as [|h l IH]; [intros _ []|]. simpl. intros D I G J.
          inversion D as [|h' l' N D']; subst. destruct I as [->|I], G as [->|G]; auto; exfalso; apply N.
          - rewrite <- J. apply in_map. exact G.
          - rewrite J. apply in_map. exact I. }
        subst g. split; [exists m'; exact B|exact K].
    - intros [(m & B) K]. exists m. apply in_flat_map. exists f. split.
      + unfold builder_input. apply filter_In. split; [unfold all_fields; apply in_or_app; auto|]. rewrite K. reflexivity.
      + rewrite B. left. reflexivity.
  Qed.
  Theorem w_setter_name m : field_builder (cfg_of c f) = Some m -> forall t, name_for ss x (f_ident f) KBuilder t <-> t = m_name m.
  Proof.
    unfold field_builder. destruct (_ || _); [|discriminate]. intros E. injection E as <-. simpl.
    apply w_name. intros B. simpl in B. intuition discriminate.
  Qed.
  Theorem w_lazy_name : is_lazy c f = true -> forall t, name_for ss x (f_ident f) KLazy t <-> t = helper_name c f KLazy.
  Proof.
    intros L. apply w_name. intros B BR. apply (w_lazy ft c ss HS x f R) in L. destruct L as [_ [[_ [_ K]]|[K _]]]; unfold field_word in K; cbn [fst snd] in K; tauto.
  Qed.
End Context.
Theorem w_builder_struct ft c ss all : struct_as ft ss (c_args c) -> Forall2 (read_as ft) all (c_input_fields c) ->
  ((exists l, In (AttrModel.AtBuilderStruct, l) (AttrModel.placed c)) <-> with_builder ss all).
Proof.
  intros HS HF. rewrite <- (w_builder ft c ss all HS HF). split.
  - intros (l & I). apply AttrProofs.placed_cases in I.
    destruct I as [[E _]|[[E _]|[[E _]|[[_ [E _]]|(f & _ & I)]]]]; try discriminate; try exact E.
    apply AttrProofs.item_cases in I.
    repeat match goal with H : _ \/ _ |- _ => destruct H | H : _ /\ _ |- _ => destruct H | H : exists _, _ |- _ => destruct H end; discriminate.
  - intros N. eexists. unfold AttrModel.placed. rewrite N. right. left. reflexivity.
Qed.
