(** Proofs for C77: what is written is what is made. *)
From Coq Require Import List Bool String.
From Verif Require Import ArgsModel CtxModel ArgsSpec TokenSpec ParseInput ParseModel ParseSpec ParseForms GrammarSpec GrammarProofs
  RustAst CommonGen PlainGen SyncGen StructGen CodegenSpec CodegenStruct WrittenSpec.
Import ListNotations.
Open Scope string_scope.
Open Scope list_scope.

(** ** Deciding *)
Definition heeds (p : vote) (v : option bool) : Prop :=
  match v with
  | None => ~ fst p
  | Some true => fst p /\ snd p
  | Some false => fst p /\ ~ snd p
  end.
Lemma on_given n cs : on_in n cs -> given_in n cs.
Proof. intros (c & r & I & X & _). exists c. split; [exact I|]. exists r. exact X. Qed.
Lemma heeds_says n cs v : says n cs v -> heeds (word n cs) v.
Proof.
  pose proof (on_given n cs) as O.
  intros (A & B & C). destruct v as [[]|]; simpl.
  - destruct B as [B _]. specialize (B eq_refl). auto.
  - apply C. reflexivity.
  - destruct A as [A _]. specialize (A eq_refl). auto.
Qed.
Lemma decide_first ps vs : Forall2 heeds ps vs -> forall d D, (d = true <-> D) ->
  (obool_or (first_some vs) d = true <-> decide ps D).
Proof.
  induction 1 as [|p v ps vs H F IH]; intros d D E; simpl; [exact E|].
  destruct v as [[]|]; simpl in *; [| |rewrite (IH d D E)]; intuition discriminate.
Qed.
Lemma decide_jointly ps vs : Forall2 heeds ps vs -> heeds (jointly ps) (first_some vs).
Proof.
  induction 1 as [|p v ps vs H F IH].
  - simpl. intros (p & [] & _).
  - destruct v as [[]|]; simpl in *.
    + split; [exists p; tauto|tauto].
    + split; [exists p; tauto|tauto].
    + destruct (first_some vs) as [[]|]; simpl in *;
        try (split; [destruct IH as [(q & I & Q) _]; exists q; tauto|tauto]).
      intros (q & [->|I] & Q); [tauto|]. apply IH. exists q. auto.
Qed.
Lemma first_or {A} (a b : option A) : or_else a b = first_some [a; b].
Proof. destruct a, b; reflexivity. Qed.
Lemma first_app {A} (l m : list (option A)) : first_some (l ++ m) = or_else (first_some l) (first_some m).
Proof. induction l as [|[x|] l IH]; simpl; auto. Qed.

(** ** The words of the struct *)
Definition struct_words : list (string * (sargs -> option bool)) :=
  [ ("sync", s_mode_sync); ("r#async", s_mode_async); ("lock", s_lock); ("inner_mut", s_inner_mut);
    ("optional", s_optional); ("fallible", s_is_fallible); ("lazy", fun s => on_off (s_lazy s));
    ("get", s_needs_accessor); ("get_mut", s_needs_accessor_mut); ("set", s_needs_setter);
    ("reader", s_needs_reader); ("writer", s_needs_writer); ("clearer", s_needs_clearer);
    ("predicate", s_needs_predicate); ("builder", s_needs_builder); ("rc", fun s => on_off (s_rc s)) ].
Definition field_words : list (string * (field -> option bool)) :=
  [ ("sync", f_mode_sync); ("r#async", f_mode_async); ("lock", f_lock); ("inner_mut", f_inner_mut);
    ("optional", f_optional); ("fallible", f_is_fallible);
    ("get", f_needs_accessor); ("get_mut", f_needs_accessor_mut); ("set", f_needs_setter);
    ("reader", f_needs_reader); ("writer", f_needs_writer); ("builder", f_needs_builder) ].
Ltac unfolded := unfold s_needs_accessor, s_needs_setter, s_needs_builder, f_needs_accessor, f_needs_setter, f_needs_builder,
  on_off, acc_base, set_base, bld_base.
Ltac say P L1 L2 o := first
  [ eapply (says_seen _ _ _ _ bool_arg negb); [exact P|exact bool_honest|eassumption|exact L1|exact L2|destruct o as [[]|]; reflexivity]
  | eapply (says_seen _ _ _ _ fallible_arg fl_off); [exact P|exact fallible_honest|eassumption|exact L1|exact L2|reflexivity]
  | eapply (says_seen _ _ _ _ helper_arg h_off); [exact P|exact helper_honest|eassumption|exact L1|exact L2|reflexivity]
  | eapply (says_seen _ _ _ _ accessor_arg); [exact P|exact getter_honest|eassumption|exact L1|exact L2|];
      unfolded; match goal with |- _ = option_map _ ?z => destruct z; reflexivity end
  | eapply (says_seen _ _ _ _ setter_arg); [exact P|exact setter_honest|eassumption|exact L1|exact L2|];
      unfolded; match goal with |- _ = option_map _ ?z => destruct z; reflexivity end
  | eapply (says_seen _ _ _ _ (builder_arg true)); [exact P|exact struct_builder_honest|eassumption|exact L1|exact L2|];
      unfolded; match goal with |- _ = option_map _ ?z => destruct z; reflexivity end
  | eapply (says_seen _ _ _ _ (builder_arg false)); [exact P|exact field_builder_honest|eassumption|exact L1|exact L2|];
      unfolded; match goal with |- _ = option_map _ ?z => destruct z; reflexivity end ].
Lemma struct_word ft ts s cs n get : read_struct ft ts = Some s -> arguments cs ts -> In (n, get) struct_words ->
  heeds (word n cs) (get s).
Proof.
  intros H A I. apply heeds_says. destruct (read_struct_inv _ _ _ H) as (cs' & items & seen & A' & AS & C & S & _ & _).
  rewrite (arguments_fun _ _ _ A A'). pose proof (seen_proper _ _ _ _ _ _ tidy_struct AS C) as P.
  pose proof (fun n => on_linked _ _ _ cs' items seen n tidy_struct AS C) as L.
  pose proof (sargs_of_inv _ _ S) as Q. repeat match goal with X : _ /\ _ |- _ => destruct X end.
  simpl in I.
  repeat (destruct I as [I|I]; [injection I as <- <-; match goal with |- says ?n _ ?o => destruct (L n eq_refl) as [L1 L2]; say P L1 L2 o end|]).
  destruct I.
Qed.

Lemma mode_says known seen cs (o : option syncmode) : proper known seen ->
  (forall n, segment_ok n = true -> (on_in n cs <-> on_seen n seen) /\ (given_in n cs <-> assoc n seen <> None)) ->
  (forall n m, assoc n seen = Some m -> exists c, In c cs /\ argument_for n c (rest m)) ->
  (forall n c r, segment_ok n = true -> In c cs -> argument_for n c r -> exists m, assoc n seen = Some m /\ rest m = r) ->
  opt_arg seen "mode" mode_arg = Some o ->
  forall ms, heeds (mode_is ms cs) (option_map (fun m => existsb (String.eqb match m with MSync => "sync" | MAsync => "async" | MPlain => "plain" end) ms) o).
Proof.
  intros P G L1 L3 O ms. destruct (G "mode" eq_refl) as [_ Hg]. unfold opt_arg in O.
  destruct (assoc "mode" seen) as [m|] eqn:E.
  - destruct (mode_arg m) as [x|] eqn:X; [|discriminate]. injection O as <-. cbn [option_map].
    assert (GV : given_in "mode" cs) by (apply Hg; discriminate).
    assert (W : exists d, rest m = [TGroup d [TIdent match x with MSync => "sync" | MAsync => "async" | MPlain => "plain" end]]).
    { destruct m as [p|p d ts|p v]; try discriminate. exists d. simpl in X |- *.
      destruct ts as [|[s|s|s|d' g] [|y ts]]; try discriminate.
      destruct (String.eqb_spec s "sync"); [subst; injection X as <-; reflexivity|].
      destruct (String.eqb_spec s "async"); [subst; injection X as <-; reflexivity|].
      destruct (String.eqb_spec s "plain"); [subst; injection X as <-; reflexivity|discriminate]. }
    destruct W as (d & W). set (w := match x with MSync => _ | MAsync => _ | MPlain => _ end) in *.
    assert (K : forall m', mode_in m' cs -> m' = w).
    { intros m' (c & d' & J & Y). destruct (L3 "mode" c _ eq_refl J Y) as (m2 & E2 & R). rewrite E in E2. injection E2 as <-.
      rewrite W in R. injection R as _ R. auto. }
    destruct (existsb (String.eqb w) ms) eqn:B; simpl; (split; [exact GV|]).
    + apply existsb_exists in B. destruct B as (y & I & B). apply String.eqb_eq in B. subst y.
      exists w. split; [exact I|]. destruct (L1 _ _ E) as (c & J & Y). rewrite W in Y. exists c, d. auto.
    + intros (m' & I & M). apply K in M. subst m'. apply not_true_iff_false in B. apply B. apply existsb_exists.
      exists w. rewrite String.eqb_refl. auto.
  - injection O as <-. simpl. assert (N : ~ given_in "mode" cs) by (rewrite Hg; congruence).
    exact N.
Qed.
Lemma links known l rules cs items seen : tidy known l rules = true -> all_some parse_nested cs = Some items ->
  collect known [] items = Some seen ->
  (forall n m, assoc n seen = Some m -> exists c, In c cs /\ argument_for n c (rest m)) /\
  (forall n c r, segment_ok n = true -> In c cs -> argument_for n c r -> exists m, assoc n seen = Some m /\ rest m = r).
Proof.
  intros T AS C. destruct (collect_no_lits _ _ _ C) as [_ NL]. rewrite <- NL in C.
  destruct (linked known l rules T cs items seen AS C) as (_ & L1 & _ & L3). split; [|exact L3].
  intros n m E. destruct (L1 n m E) as (c & J & _ & Y). eauto.
Qed.
Lemma struct_mode ft ts s cs : read_struct ft ts = Some s -> arguments cs ts ->
  heeds (mode_is ["sync"; "async"] cs) (option_map (fun m => mode_is_sync m || mode_is_async m) (s_mode s)) /\
  heeds (mode_is ["async"] cs) (option_map mode_is_async (s_mode s)).
Proof.
  intros H A. destruct (read_struct_inv _ _ _ H) as (cs' & items & seen & A' & AS & C & S & _ & _).
  rewrite (arguments_fun _ _ _ A A'). pose proof (seen_proper _ _ _ _ _ _ tidy_struct AS C) as P.
  pose proof (fun n => on_linked _ _ _ cs' items seen n tidy_struct AS C) as L.
  destruct (links _ _ _ _ _ _ tidy_struct AS C) as [L1 L3].
  pose proof (proj1 (sargs_of_inv _ _ S)) as Q.
  pose proof (mode_says _ _ _ _ P L L1 L3 Q) as M.
  pose proof (M ["sync"; "async"]) as M1. pose proof (M ["async"]) as M2.
  destruct (s_mode s) as [[]|]; split; assumption.
Qed.

(** ** The words of a field *)
Section Field.
  Variables (ft : features) (i v t : string) (a : list string) (x : source) (f : field).
  Hypothesis H : read_field ft i v t a (so_attrs x) = Some f.
  Hypothesis A : sourced x.

  Lemma field_parts : exists items seen f0, all_some parse_nested (so_args x) = Some items /\
    collect field_names [] items = Some seen /\ field_of i v t a seen = Some f0 /\ f = marked (so_attrs x) f0.
  Proof.
    destruct (read_field_inv _ _ _ _ _ _ _ H) as (cs' & items & seen & f0 & A' & AS & C & S & E & _ & _).
    exists items, seen, f0. split; [|auto]. rewrite <- (gathered_items _ _ A), (gathered_items _ _ A'). exact AS.
  Qed.
  Lemma word_field n w : ~ In n bare_words -> heeds (word n (so_args x)) w -> heeds (field_word n x) w.
  Proof. intros N. unfold heeds, word, field_word. cbn [fst snd]. destruct w as [[]|]; tauto. Qed.
  Lemma field_word_plain n get : In (n, get) field_words -> heeds (word n (so_args x)) (get f).
  Proof.
    intros I. apply heeds_says. destruct field_parts as (items & seen & f0 & AS & C & S & E).
    pose proof (seen_proper _ _ _ _ _ _ tidy_field AS C) as P.
    pose proof (fun n => on_linked _ _ _ (so_args x) items seen n tidy_field AS C) as L.
    pose proof (field_of_inv _ _ _ _ _ _ S) as Q. repeat match goal with X : _ /\ _ |- _ => destruct X end.
    assert (G : get f = get f0).
    { rewrite E. unfold marked, mark_implicitly. clear - I. simpl in I.
      destruct (existsb is_word (so_attrs x)), (f_lazy f0);
        repeat (destruct I as [I|I]; [injection I as <- <-; reflexivity|]); destruct I. }
    rewrite G. simpl in I.
    repeat (destruct I as [I|I]; [injection I as <- <-; match goal with |- says ?n _ ?o => destruct (L n eq_refl) as [L1 L2]; say P L1 L2 o end|]).
    destruct I.
  Qed.
  Lemma field_word_bare n get : In (n, get) [("lazy", f_lazy); ("clearer", f_clearer); ("predicate", f_predicate)] ->
    heeds (field_word n x) (on_off (get f)).
  Proof.
    intros I. destruct field_parts as (items & seen & f0 & AS & C & S & E).
    pose proof (seen_proper _ _ _ _ _ _ tidy_field AS C) as P.
    pose proof (fun n => on_linked _ _ _ (so_args x) items seen n tidy_field AS C) as L.
    pose proof (field_of_inv _ _ _ _ _ _ S) as Q. repeat match goal with X : _ /\ _ |- _ => destruct X end.
    assert (Z : says n (so_args x) (on_off (get f0))).
    { simpl in I.
      repeat (destruct I as [I|I]; [injection I as <- <-; match goal with |- says ?n _ ?o => destruct (L n eq_refl) as [L1 L2]; say P L1 L2 o end|]).
      destruct I. }
    assert (ZL : says "lazy" (so_args x) (on_off (f_lazy f0))).
    { destruct (L "lazy" eq_refl) as [L1 L2]. say P L1 L2 (on_off (f_lazy f0)). }
    apply heeds_says in Z. apply heeds_says in ZL.
    assert (W : existsb is_word (so_attrs x) = true <-> In FWord (so_attrs x)).
    { rewrite existsb_exists. split; [intros ([| |] & J & X); try discriminate; exact J|intros J; exists FWord; auto]. }
    assert (B : In n bare_words).
    { simpl in I. simpl. repeat (destruct I as [I|I]; [injection I as <- _; tauto|]). destruct I. }
    unfold field_word. rewrite E. unfold marked, mark_implicitly.
    destruct (existsb is_word (so_attrs x)) eqn:X.
    - assert (FW : In FWord (so_attrs x)) by tauto. destruct (f_lazy f0) as [h|] eqn:LZ.
      + assert (GL : given_in "lazy" (so_args x)).
        { simpl in ZL. destruct (helper_is_true h); apply ZL. }
        assert (N : ~ bare x) by (unfold bare; tauto).
        unfold heeds, word in *; cbn [fst snd] in *; destruct (on_off (get f0)) as [[]|]; tauto.
      + assert (N : bare x) by (split; [exact FW|]; apply ZL).
        assert (O : on_off (get (mark_implicitly f0)) = Some false).
        { unfold mark_implicitly. rewrite LZ. simpl in I. repeat (destruct I as [I|I]; [injection I as <- <-; reflexivity|]). destruct I. }
        unfold mark_implicitly in O. rewrite LZ in O. rewrite O. unfold heeds. cbn [fst snd]. tauto.
    - assert (N : ~ bare x) by (unfold bare; intuition congruence).
      unfold heeds, word in *; cbn [fst snd] in *; destruct (on_off (get f0)) as [[]|]; tauto.
  Qed.
  Lemma field_mode_word :
    heeds (mode_is ["sync"] (so_args x)) (option_map mode_is_sync (f_mode f)) /\
    heeds (mode_is ["async"] (so_args x)) (option_map mode_is_async (f_mode f)).
  Proof.
    destruct field_parts as (items & seen & f0 & AS & C & S & E).
    pose proof (seen_proper _ _ _ _ _ _ tidy_field AS C) as P.
    pose proof (fun n => on_linked _ _ _ (so_args x) items seen n tidy_field AS C) as L.
    destruct (links _ _ _ _ _ _ tidy_field AS C) as [L1 L3].
    pose proof (proj1 (proj2 (field_of_inv _ _ _ _ _ _ S))) as Q.
    pose proof (mode_says _ _ _ _ P L L1 L3 Q) as M.
    pose proof (M ["sync"]) as M1. pose proof (M ["async"]) as M2.
    assert (G : f_mode f = f_mode f0).
    { rewrite E. unfold marked, mark_implicitly. destruct (existsb is_word (so_attrs x)), (f_lazy f0); reflexivity. }
    rewrite G. destruct (f_mode f0) as [[]|]; split; assumption.
  Qed.
  Lemma field_skip : f_skip f = true <-> skipped x.
  Proof.
    destruct field_parts as (items & seen & f0 & AS & C & S & E).
    pose proof (fun n => on_linked _ _ _ (so_args x) items seen n tidy_field AS C) as L.
    pose proof (proj1 (field_of_inv _ _ _ _ _ _ S)) as Q.
    assert (G : f_skip f = f_skip f0).
    { rewrite E. unfold marked, mark_implicitly. destruct (existsb is_word (so_attrs x)), (f_lazy f0); reflexivity. }
    rewrite G. unfold skipped. rewrite (proj2 (L "skip" eq_refl)). apply given_flag. exact Q.
  Qed.
End Field.

(** ** A field in its struct *)
Definition read_as (ft : features) (x : source) (f : field) : Prop :=
  sourced x /\ exists i v t a, read_field ft i v t a (so_attrs x) = Some f.
Definition struct_as (ft : features) (ss : list (list tok)) (s : sargs) : Prop :=
  exists ts, arguments ss ts /\ read_struct ft ts = Some s.
Section Context.
  Variables (ft : features) (c : sctx) (ss : list (list tok)) (all : list source).
  Hypothesis HS : struct_as ft ss (c_args c).
  Hypothesis HF : Forall2 (read_as ft) all (c_input_fields c).

  Lemma s_word n get : In (n, get) struct_words -> heeds (word n ss) (get (c_args c)).
  Proof. destruct HS as (ts & A & R). apply (struct_word ft ts _ _ _ _ R A). Qed.
  Definition sync_list (g : field) : list (option bool) :=
    [f_mode_sync g; option_map mode_is_sync (f_mode g); f_mode_async g; f_lock g; option_map negb (f_inner_mut g);
     if unwrap_or (f_needs_reader g) false || unwrap_or (f_needs_writer g) false then Some true else None].
  Lemma sync_first g : f_is_sync g = first_some (sync_list g).
  Proof.
    unfold f_is_sync, f_is_async, f_is_plain, f_is_inner_mut, f_needs_reader, f_needs_writer, sync_list.
    destruct (f_mode_sync g), (f_mode g), (f_mode_async g), (f_lock g), (f_inner_mut g); simpl; try reflexivity.
    unfold f_needs_reader, f_needs_writer. destruct (_ || _); reflexivity.
  Qed.
  Lemma sync_votes y g : read_as ft y g -> Forall2 heeds (sync_words y) (sync_list g).
  Proof.
    intros (A & i & v & t & a & R).
    pose proof (fun n get => field_word_plain ft i v t a y g R A n get) as W.
    destruct (field_mode_word ft i v t a y g R A) as [M1 M2].
    pose proof (W "inner_mut" f_inner_mut ltac:(simpl; tauto)) as IM.
    pose proof (W "reader" f_needs_reader ltac:(simpl; tauto)) as RD.
    pose proof (W "writer" f_needs_writer ltac:(simpl; tauto)) as WR.
    pose proof (on_given "reader" (so_args y)) as OR. pose proof (on_given "writer" (so_args y)) as OW.
    repeat constructor; try (apply (W _ _); simpl; tauto); [exact M1| |].
    - unfold heeds, word in *. cbn [fst snd] in *. destruct (f_inner_mut g) as [[]|]; simpl; tauto.
    - unfold heeds, word in *. cbn [fst snd] in *.
      destruct (f_needs_reader g) as [[]|], (f_needs_writer g) as [[]|]; simpl; tauto.
  Qed.
  Lemma field_votes : Forall2 heeds (map (fun y => jointly (sync_words y)) all) (map f_is_sync (c_input_fields c)).
  Proof.
    revert HF. generalize (c_input_fields c). intros fs F.
    induction F as [|y g ys gs R F IH]; simpl; constructor; [|exact IH].
    rewrite sync_first. apply decide_jointly, sync_votes, R.
  Qed.
  Section OneField.
    Variables (x : source) (f : field).
    Hypothesis R : read_as ft x f.

    Lemma f_word n get : In (n, get) field_words -> heeds (field_word n x) (get f).
    Proof.
      intros I. destruct R as (A & i & v & t & a & E). apply word_field; [|apply (field_word_plain ft i v t a x f E A n get I)].
      simpl in I |- *. repeat (destruct I as [I|I]; [injection I as <- _; intuition discriminate|]). destruct I.
    Qed.
    Lemma f_bare n get : In (n, get) [("lazy", f_lazy); ("clearer", f_clearer); ("predicate", f_predicate)] ->
      heeds (field_word n x) (on_off (get f)).
    Proof. destruct R as (A & i & v & t & a & E). apply (field_word_bare ft i v t a x f E A). Qed.
    Lemma f_skipped : f_skip f = true <-> skipped x.
    Proof. destruct R as (A & i & v & t & a & E). apply (field_skip ft i v t a x f E A). Qed.
    Lemma asks_two n vf vs d D : heeds (field_word n x) vf -> heeds (word n ss) vs -> (d = true <-> D) ->
      (obool_or (or_else vf vs) d = true <-> asks ss x n D).
    Proof. intros A B E. rewrite first_or. apply decide_first; [|exact E]. repeat constructor; assumption. Qed.
    Lemma no : false = true <-> False.
    Proof. split; [discriminate|intros []]. Qed.
    Ltac both := first [ apply f_word; simpl; tauto | apply s_word; simpl; tauto | apply no
      | apply (f_bare "clearer" f_clearer); simpl; tauto | apply (f_bare "predicate" f_predicate); simpl; tauto ].

    Lemma w_clearer : needs_clearer c f = true <-> asks ss x "clearer" False.
    Proof. apply asks_two; both. Qed.
    Lemma w_predicate : needs_predicate c f = true <-> asks ss x "predicate" False.
    Proof. apply asks_two; both. Qed.
    Lemma w_reader : needs_reader c f = true <-> asks ss x "reader" False.
    Proof. apply asks_two; both. Qed.
    Lemma w_writer : needs_writer c f = true <-> asks ss x "writer" False.
    Proof. apply asks_two; both. Qed.
    Lemma w_setter : needs_setter c f = true <-> asks ss x "set" False.
    Proof. apply asks_two; both. Qed.
    Lemma w_accessor_mut : needs_accessor_mut c f = true <-> asks ss x "get_mut" False.
    Proof. apply asks_two; both. Qed.
    Lemma w_inner_mut : is_inner_mut c f = true <-> asks ss x "inner_mut" False.
    Proof. apply asks_two; [apply (f_word "inner_mut" f_inner_mut)|apply (s_word "inner_mut" s_inner_mut)|apply no]; simpl; tauto. Qed.
    Lemma w_fallible : is_fallible c f = true <-> asks ss x "fallible" False.
    Proof. apply asks_two; both. Qed.
    Lemma w_lazy : is_lazy c f = true <-> lazily ss x.
    Proof.
      unfold is_lazy, f_is_lazy, unless_skip, lazily. rewrite <- f_skipped. destruct (f_skip f).
      - simpl. split; [discriminate|]. intros [N _]. contradiction (N eq_refl).
      - rewrite (asks_two "lazy" _ _ false False (f_bare "lazy" f_lazy ltac:(simpl; tauto)) (s_word "lazy" (fun s => on_off (s_lazy s)) ltac:(simpl; tauto)) no).
        intuition discriminate.
    Qed.
    Lemma w_optional : is_optional c f = true <-> optionally ss x.
    Proof.
      unfold is_optional, optionally. rewrite andb_true_iff, negb_true_iff, <- not_true_iff_false, f_skipped.
      apply and_iff_compat_l. apply asks_two.
      - apply (f_word "optional" f_optional); simpl; tauto.
      - apply (s_word "optional" s_optional); simpl; tauto.
      - rewrite andb_true_iff, negb_true_iff, orb_true_iff, <- not_true_iff_false, w_lazy, w_clearer, w_predicate. reflexivity.
    Qed.
    Lemma w_accessor : needs_accessor c f = true <->
      asks ss x "get" (asks ss x "clearer" False \/ asks ss x "predicate" False \/ lazily ss x \/ asks ss x "inner_mut" False).
    Proof.
      apply asks_two; try both.
      rewrite !orb_true_iff, w_lazy, w_clearer, w_predicate, w_inner_mut. tauto.
    Qed.
    Lemma w_lock : needs_lock c f = true <-> locked ss x.
    Proof.
      apply asks_two.
      - apply (f_word "lock" f_lock); simpl; tauto.
      - apply (s_word "lock" s_lock); simpl; tauto.
      - rewrite !orb_true_iff, w_reader, w_writer, w_optional. tauto.
    Qed.
    Lemma f_mode_votes : heeds (mode_is ["sync"] (so_args x)) (option_map mode_is_sync (f_mode f)) /\
      heeds (mode_is ["async"] (so_args x)) (option_map mode_is_async (f_mode f)).
    Proof. destruct R as (A & i & v & t & a & E). apply (field_mode_word ft i v t a x f E A). Qed.
    Lemma s_mode_votes : heeds (mode_is ["sync"; "async"] ss) (option_map (fun m => mode_is_sync m || mode_is_async m) (s_mode (c_args c))) /\
      heeds (mode_is ["async"] ss) (option_map mode_is_async (s_mode (c_args c))).
    Proof. destruct HS as (ts & A & E). apply (struct_mode ft ts _ _ E A). Qed.
    Lemma f_plain_word n get : In (n, get) field_words -> heeds (word n (so_args x)) (get f).
    Proof. destruct R as (A & i & v & t & a & E). apply (field_word_plain ft i v t a x f E A). Qed.
    Lemma w_async : is_async c f = true <-> in_async ss x.
    Proof.
      unfold is_async, f_is_async, s_is_async, in_async.
      replace (or_else (or_else (f_mode_async f) (option_map mode_is_async (f_mode f)))
                (or_else (s_mode_async (c_args c)) (option_map mode_is_async (s_mode (c_args c)))))
        with (first_some [f_mode_async f; option_map mode_is_async (f_mode f); s_mode_async (c_args c);
                          option_map mode_is_async (s_mode (c_args c))]).
      - apply decide_first; [|apply no].
        constructor; [apply (f_plain_word "r#async" f_mode_async); simpl; tauto|].
        constructor; [apply f_mode_votes|].
        constructor; [apply (s_word "r#async" s_mode_async); simpl; tauto|].
        constructor; [apply s_mode_votes|constructor].
      - destruct (f_mode_async f), (f_mode f), (s_mode_async (c_args c)), (s_mode (c_args c)); reflexivity.
    Qed.
    Definition struct_list : list (option bool) :=
      [s_mode_sync (c_args c); option_map (fun m => mode_is_sync m || mode_is_async m) (s_mode (c_args c));
       s_mode_async (c_args c); s_lock (c_args c); s_needs_reader (c_args c); s_needs_writer (c_args c)].
    Lemma struct_votes : Forall2 heeds (struct_sync_words ss) struct_list.
    Proof.
      constructor; [apply (s_word "sync" s_mode_sync); simpl; tauto|].
      constructor; [apply s_mode_votes|].
      constructor; [apply (s_word "r#async" s_mode_async); simpl; tauto|].
      constructor; [apply (s_word "lock" s_lock); simpl; tauto|].
      constructor; [apply (s_word "reader" s_needs_reader); simpl; tauto|].
      constructor; [apply (s_word "writer" s_needs_writer); simpl; tauto|constructor].
    Qed.
    Lemma w_sync : is_sync c f = true <-> in_sync ss all x.
    Proof.
      assert (E : is_sync c f = obool_or (first_some (sync_list f ++ struct_list ++ map f_is_sync (c_input_fields c))) false).
      { unfold is_sync. rewrite sync_first, !first_app. destruct (first_some (sync_list f)) as [b|]; [reflexivity|].
        unfold is_rather_sync, s_is_sync, s_is_async, struct_list, s_needs_reader, s_needs_writer. simpl.
        destruct (s_mode_sync (c_args c)), (s_mode (c_args c)), (s_mode_async (c_args c)), (s_lock (c_args c)); simpl; try reflexivity.
        destruct (on_off (s_reader (c_args c))), (on_off (s_writer (c_args c))); reflexivity. }
      rewrite E. apply decide_first; [|apply no].
      apply Forall2_app; [apply sync_votes, R|]. apply Forall2_app; [apply struct_votes|apply field_votes].
    Qed.

    Lemma not_bool (b : bool) (P : Prop) : (b = true <-> P) -> (b = false <-> ~ P).
    Proof. intros <-. symmetry. apply not_true_iff_false. Qed.
    Theorem w_mode m : field_mode c f = m <-> made_for ss all x m.
    Proof.
      unfold field_mode, made_for. pose proof w_sync as S. pose proof w_async as A.
      destruct (is_sync c f), (is_async c f), m; intuition discriminate.
    Qed.
    Theorem w_methods k ms : field_methods c f = GOk ms -> (In k (map m_kind ms) <-> method_for ss all x k).
    Proof.
      intros M. unfold method_for. rewrite <- f_skipped. destruct (f_skip f) eqn:K.
      - assert (E : ms = []).
        { unfold field_methods, sync_methods, plain_methods in M. simpl in M. unfold f_is_skipped in M. rewrite K in M.
          destruct (is_sync c f); injection M as <-; reflexivity. }
        subst ms. simpl. split; [intros []|]. intros [N _]. contradiction (N eq_refl).
      - rewrite (emitted_iff c f ms k K M). unfold asked.
        destruct k; rewrite ?andb_true_iff, ?orb_true_iff, ?w_accessor, ?w_accessor_mut, ?w_setter, ?w_clearer, ?w_reader, ?w_writer,
          ?w_predicate, ?w_sync, ?w_lazy, ?w_optional; intuition discriminate.
    Qed.
    Lemma told_bool (b : bool) P : (b = true <-> P) -> forall d, told d P <-> d = b.
    Proof. intros E d. unfold told. destruct d, b; intuition congruence. Qed.
    Lemma w_content t : content ss x t <-> t = if is_optional c f then TOpt TT else TT.
    Proof.
      pose proof w_optional as O. split.
      - intros C. destruct C, (is_optional c f); intuition congruence.
      - intros ->. destruct (is_optional c f); constructor; intuition congruence.
    Qed.
    Theorem w_type t : field_type c f = GOk t -> forall t', has_type ss all x t' <-> t' = t.
    Proof.
      intros T. pose proof w_sync as S. pose proof w_lazy as L. pose proof w_lock as K. pose proof w_inner_mut as I. pose proof f_skipped as SK.
      pose proof (told_bool _ _ w_async) as AS. pose proof (told_bool _ _ w_fallible) as FL. pose proof w_content as C.
      assert (SL : skipped x -> ~ lazily ss x) by (unfold lazily; tauto).
      assert (SO : f_skip f = true -> is_optional c f = false) by (unfold is_optional, f_is_skipped; intros ->; reflexivity).
      unfold field_type, sync_type, plain_type in T. simpl in T. unfold f_is_skipped, maybe_locked, maybe_optional in T. simpl in T.
      intros t'. destruct (is_sync c f).
      - destruct (wrapper_type_ok (cfg_of c f)); [cbn [gbind] in T|discriminate|discriminate]. injection T as T.
        destruct (f_skip f) eqn:Q.
        + subst t. split; [intros Z; destruct Z; tauto|]. intros ->. apply type_skip; tauto.
        + destruct (is_lazy c f).
          * subst t. split.
            -- intros Z; destruct Z; try tauto; try (intuition congruence). rewrite AS, FL in *. subst. reflexivity.
            -- intros ->. apply type_proxy; try tauto; [apply AS|apply FL]; reflexivity.
          * destruct (needs_lock c f).
            -- subst t. split.
               ++ intros Z; destruct Z; try (intuition congruence). rewrite AS, C in *. subst. reflexivity.
               ++ intros ->. apply type_lock; try (intuition congruence); [apply AS|apply C]; reflexivity.
            -- subst t. split.
               ++ intros Z; destruct Z; try (intuition congruence). apply C. assumption.
               ++ intros ->. apply type_free; try (intuition congruence). apply C. reflexivity.
      - injection T as T. destruct (is_lazy c f).
        + subst t. split; [intros Z; destruct Z; intuition congruence|]. intros ->. apply type_once; intuition congruence.
        + destruct (is_inner_mut c f); subst t.
          * split; [intros Z; destruct Z; try (intuition congruence); f_equal; apply C; assumption|].
            intros ->. apply type_cell; try (intuition congruence). apply C. reflexivity.
          * split; [intros Z; destruct Z; try (intuition congruence); apply C; assumption|].
            intros ->. apply type_plain; try (intuition congruence). apply C. reflexivity.
    Qed.
  End OneField.

  Theorem w_builder : needs_builder_struct c = true <-> with_builder ss all.
  Proof.
    unfold needs_builder_struct, with_builder.
    assert (F : existsb (fun f => on (f_needs_builder f)) (c_input_fields c) = true <->
                exists y, In y all /\ on_in "builder" (so_args y)).
    { revert HF. generalize (c_input_fields c). intros fs F.
      induction F as [|y g ys gs R F IH]; simpl; [split; [discriminate|intros (y & [] & _)]|].
      rewrite orb_true_iff, IH.
      assert (O : on (f_needs_builder g) = true <-> on_in "builder" (so_args y)).
      { pose proof (f_plain_word y g R "builder" f_needs_builder ltac:(simpl; tauto)) as W.
        pose proof (on_given "builder" (so_args y)) as OG.
        unfold heeds, word, on in *. cbn [fst snd] in W. destruct (f_needs_builder g) as [[]|]; intuition discriminate. }
      rewrite O. split.
      - intros [Y|(z & I & Z)]; [exists y|exists z]; auto.
      - intros (z & [<-|I] & Z); [auto|right; exists z; auto]. }
    pose proof (s_word "builder" s_needs_builder ltac:(simpl; tauto)) as W.
    simpl. rewrite <- F. unfold heeds, word in *. cbn [fst snd] in W.
    destruct (s_needs_builder (c_args c)) as [[]|]; intuition discriminate.
  Qed.
End Context.
