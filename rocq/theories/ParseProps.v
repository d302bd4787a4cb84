(** Properties C52 - C58: the arguments of [#[fxstruct(...)]] and [#[fieldx(...)]] as
    tokens.  [read_struct] and [read_field] (ParseModel.v) give [None] for a compile-time
    error. *)
From Coq Require Import List Bool String Ascii Permutation.
From Verif Require Import ArgsModel ArgsSpec TokenSpec ParseInput ParseSpec ParseModel ParseFacts ParseForms ParseRepeat
  ParseDefault ParseTop.
Import ListNotations.
Open Scope string_scope.
Open Scope list_scope.

Definition all_features : features := mk_features true true true.
Definition no_features : features := mk_features false false false.
(** Shorthands for examples. *)
Definition w (s : string) : tok := TIdent s.
Definition c_ : tok := TPunct ",".
Definition p_ (l : list tok) : tok := TGroup DParen l.
Definition str (s : string) : tok := TLit (quoted s).

(** * C52: keywords *)
(** In an accepted attribute, a documented keyword is on iff it stands there as a word or
    with empty parentheses, off iff it stands there with [off] in parentheses, unset
    otherwise; and no other form of it occurs. *)
Theorem C52_struct_keywords : forall ft ts s, read_struct ft ts = Some s ->
  exists cs, arguments cs ts /\ forall n get, In (n, get) struct_keywords ->
    (forall b, get s = Some b <-> exists c, In c cs /\ keyword_form n b c) /\
    (forall c r, In c cs -> argument_for n c r -> exists b, keyword_form n b c).
Proof. exact struct_keywords_read. Qed.
Print Assumptions C52_struct_keywords.
Example C52_struct_case : exists s,
  read_struct all_features [w "sync"; p_ [w "off"]; c_; w "no_new"; c_; w "lock"; p_ []; c_] = Some s /\
  s_mode_sync s = Some false /\ s_no_new s = Some true /\ s_lock s = Some true /\ s_clone s = None.
Proof. eexists. repeat split. Qed.
Example C52_struct_wrong : read_struct all_features [w "no_new"; p_ [w "on"]] = None /\
  read_struct all_features [w "no_new"; TPunct "="; w "true"] = None /\
  read_struct all_features [w "no_new"; p_ [str "x"]] = None.
Proof. repeat split. Qed.

Theorem C52_field_keywords : forall ft i v t a l f, read_field ft i v t a l = Some f ->
  exists cs, gathered l cs /\ forall n get, In (n, get) field_keywords ->
    (forall b, get f = Some b <-> exists c, In c cs /\ keyword_form n b c) /\
    (forall c r, In c cs -> argument_for n c r -> exists b, keyword_form n b c).
Proof. exact field_keywords_read. Qed.
Print Assumptions C52_field_keywords.
Example C52_field_case : exists f,
  read_field all_features "a" "" "u8" [] [FWord; FList [w "into"; p_ [w "off"; c_]; c_; w "copy"]] = Some f /\
  f_into f = Some false /\ f_copy f = Some true /\ f_clone f = None.
Proof. eexists. repeat split. Qed.

(** The only flag among the arguments: just the word. *)
Theorem C52_skip : forall ft i v t a l f, read_field ft i v t a l = Some f ->
  exists cs, gathered l cs /\
    (f_skip f = true <-> exists c, In c cs /\ argument_for "skip" c []) /\
    (forall c r, In c cs -> argument_for "skip" c r -> r = []).
Proof. exact skip_read. Qed.
Print Assumptions C52_skip.
Example C52_skip_case :
  (exists f, read_field all_features "a" "" "u8" [] [FList [w "skip"]] = Some f /\ f_skip f = true) /\
  read_field all_features "a" "" "u8" [] [FList [w "skip"; p_ [w "off"]]] = None.
Proof. split; [eexists; split|]; reflexivity. Qed.

(** [rc] is documented as a keyword too (fieldx_derive/src/lib.rs:229-231), yet it takes a
    name and a visibility. *)
Theorem C52_rc_refuted : exists ts s c r, read_struct no_features ts = Some s /\ arguments [c] ts /\
  argument_for "rc" c r /\ ~ exists b, keyword_form "rc" b c.
Proof.
  exists [w "rc"; p_ [str "x"]]. eexists. exists [w "rc"; p_ [str "x"]], [p_ [str "x"]].
  split; [reflexivity|]. split; [|split; [constructor|]].
  - constructor. split; [discriminate|]. intros [E|[E|[]]]; discriminate.
  - intros (b & K). inversion K as [c A E|c d D A E|c d o ts D A Ar F E]; subst.
    + inversion A.
    + inversion A.
    + inversion A; subst.
      assert (Q : o = [str "x"]).
      { pose proof (arguments_terminated _ _ Ar) as Q. inversion Q. reflexivity. }
      subst o. inversion F.
Qed.
Print Assumptions C52_rc_refuted.

(** * C53: the order of arguments does not matter *)
(** Neither does the order of sub-arguments, the kind of parentheses, or a trailing comma;
    except where the sub-arguments are a list ([ordered]). *)
Theorem C53_struct_order : forall ft ts ts', shuffled ts ts' -> read_struct ft ts = read_struct ft ts'.
Proof. exact struct_order. Qed.
Print Assumptions C53_struct_order.

(** For a field, neither does the way the arguments are spread over several attributes. *)
Theorem C53_field_order : forall ft i v t a l l' cs ds cs',
  gathered l cs -> gathered l' cs' -> (In FWord l <-> In FWord l') ->
  shuffled_each cs ds -> Permutation ds cs' ->
  read_field ft i v t a l = read_field ft i v t a l'.
Proof. exact field_order. Qed.
Print Assumptions C53_field_order.

Definition C53_a : list tok := [w "sync"; c_; w "get"; p_ [str "g_"; c_; w "private"; c_; w "copy"]].
Definition C53_b : list tok := [w "get"; TGroup DBrace [w "copy"; c_; str "g_"; c_; w "private"; c_]; c_; w "sync"; c_].
Ltac one := split; [discriminate|simpl; intuition discriminate].
Example C53_case : shuffled C53_a C53_b /\ exists s, read_struct all_features C53_a = Some s /\
  read_struct all_features C53_b = Some s /\ s_mode_sync s = Some true.
Proof.
  split.
  - apply shuffle with (cs := [[w "sync"]; [w "get"; p_ [str "g_"; c_; w "private"; c_; w "copy"]]])
      (ds := [[w "sync"]; [w "get"; TGroup DBrace [w "copy"; c_; str "g_"; c_; w "private"; c_]]])
      (cs' := [[w "get"; TGroup DBrace [w "copy"; c_; str "g_"; c_; w "private"; c_]]; [w "sync"]]).
    + apply (args_more [w "sync"]); [one|]. apply args_last. one.
    + apply each_same. apply each_sub; try discriminate; [simpl; intuition discriminate| |constructor].
      apply shuffle with (cs := [[str "g_"]; [w "private"]; [w "copy"]]) (ds := [[str "g_"]; [w "private"]; [w "copy"]])
        (cs' := [[w "copy"]; [str "g_"]; [w "private"]]).
      * apply (args_more [str "g_"]); [one|]. apply (args_more [w "private"]); [one|]. apply args_last. one.
      * repeat constructor.
      * apply Permutation_sym. apply (Permutation_cons_app [[str "g_"]; [w "private"]] [] [w "copy"]). reflexivity.
      * apply (args_more [w "copy"]); [one|]. apply (args_more [str "g_"]); [one|].
        apply (args_more [w "private"]); [one|]. constructor.
    + apply perm_swap.
    + apply (args_more [w "get"; TGroup DBrace [w "copy"; c_; str "g_"; c_; w "private"; c_]]); [one|].
      apply (args_more [w "sync"]); [one|]. constructor.
  - eexists. repeat split.
Qed.
Example C53_field_case : exists f,
  read_field all_features "a" "" "u8" [] [FList [w "get"; c_; w "set"]; FWord] = Some f /\
  read_field all_features "a" "" "u8" [] [FList [w "set"]; FWord; FList [w "get"; c_]] = Some f.
Proof. eexists. split; reflexivity. Qed.

(** * C54: nothing is given twice *)
Theorem C54_struct_repeated : forall ft cs ts, arguments cs ts -> repeated cs -> read_struct ft ts = None.
Proof. exact repeated_struct. Qed.
Print Assumptions C54_struct_repeated.
Theorem C54_field_repeated : forall ft i v t a l cs, gathered l cs -> repeated cs ->
  read_field ft i v t a l = None.
Proof. exact repeated_field. Qed.
Print Assumptions C54_field_repeated.
Example C54_case :
  repeated [[w "get"; p_ [w "public"; c_; str "a"; c_; w "public"; p_ [w "crate"]]]; [w "sync"]] /\
  arguments [[w "get"; p_ [w "public"; c_; str "a"; c_; w "public"; p_ [w "crate"]]]; [w "sync"]]
    [w "get"; p_ [w "public"; c_; str "a"; c_; w "public"; p_ [w "crate"]]; c_; w "sync"].
Proof.
  split.
  - apply rep_inside with (n := "get") (c := [w "get"; p_ [w "public"; c_; str "a"; c_; w "public"; p_ [w "crate"]]])
      (d := DParen) (g := [w "public"; c_; str "a"; c_; w "public"; p_ [w "crate"]])
      (ds := [[w "public"]; [str "a"]; [w "public"; p_ [w "crate"]]]).
    + left. reflexivity.
    + simpl. intuition discriminate.
    + constructor.
    + apply (args_more [w "public"]); [one|]. apply (args_more [str "a"]); [one|]. apply args_last. one.
    + apply rep_name with "public". apply (twice_at _ [] [w "public"] [[str "a"]] [w "public"; p_ [w "crate"]] []).
      * exists []. constructor.
      * exists [p_ [w "crate"]]. constructor.
  - apply (args_more [w "get"; p_ [w "public"; c_; str "a"; c_; w "public"; p_ [w "crate"]]]); [one|].
    apply args_last. one.
Qed.

(** A name given both as a literal and as an argument is not refused: the literal wins
    without a word. *)
Theorem C54_two_names_refuted : exists s s',
  read_struct all_features [w "get"; p_ [w "name"; p_ [str "x"]; c_; str "y"]] = Some s /\
  read_struct all_features [w "get"; p_ [str "y"]] = Some s /\
  read_struct all_features [w "get"; p_ [w "name"; p_ [str "x"]]] = Some s' /\ s <> s' /\
  exists z, read_struct all_features [w "serde"; p_ [w "shadow_name"; p_ [str "A"]; c_; str "B"]] = Some z /\
            read_struct all_features [w "serde"; p_ [str "B"]] = Some z.
Proof. do 2 eexists. repeat split; try discriminate. eexists. split; reflexivity. Qed.
Print Assumptions C54_two_names_refuted.

(** A bare [#[fieldx]] replaces a clearer and a predicate given in another attribute of the
    same field: what was asked for is lost. *)
Theorem C54_bare_word_refuted : exists f f',
  read_field all_features "a" "" "u8" [] [FWord; FList [w "predicate"; p_ [str "has_a"]]] = Some f /\
  read_field all_features "a" "" "u8" [] [FWord; FList [w "predicate"; p_ [w "off"]]] = Some f /\
  read_field all_features "a" "" "u8" [] [FWord] = Some f /\
  read_field all_features "a" "" "u8" [] [FList [w "lazy"; c_; w "clearer"; c_; w "predicate"; p_ [str "has_a"]]] = Some f' /\
  f_predicate f <> f_predicate f'.
Proof. do 2 eexists. repeat split. discriminate. Qed.
Print Assumptions C54_bare_word_refuted.

(** * C55: what is written is what is read *)
(** Every set of arguments that can be written is read back unchanged, if no two of them
    exclude each other and the features are there; otherwise it is refused. *)
Theorem C55_struct_round_trip : forall ft s, struct_ok s ->
  let r := read_struct ft (joined (w_struct s)) in
  let fine := harmonious struct_conflicts (enabled_s s) /\
              allowed ft (s_mode_sync s) (s_mode_async s) (s_serde s) in
  (fine -> r = Some s) /\ (~ fine -> r = None).
Proof. exact struct_written_read. Qed.
Print Assumptions C55_struct_round_trip.
Theorem C55_field_round_trip : forall ft f l, field_ok f -> gathered l (w_field f) -> ~ In FWord l ->
  let r := read_field ft (f_ident f) (f_vis f) (f_ty f) (f_attrs f) l in
  let fine := harmonious field_conflicts (enabled_f f) /\
              allowed ft (f_mode_sync f) (f_mode_async f) (f_serde f) in
  (fine -> r = Some f) /\ (~ fine -> r = None).
Proof. exact field_written_read. Qed.
Print Assumptions C55_field_round_trip.

(** Whatever the tokens, what is accepted holds no excluded pair and has its features. *)
Theorem C55_struct_accepted : forall ft ts s, read_struct ft ts = Some s ->
  harmonious struct_conflicts (enabled_s s) /\ allowed ft (s_mode_sync s) (s_mode_async s) (s_serde s).
Proof. exact struct_accepted. Qed.
Print Assumptions C55_struct_accepted.
Theorem C55_field_accepted : forall ft i v t a l f, read_field ft i v t a l = Some f ->
  harmonious field_conflicts (enabled_f f) /\ allowed ft (f_mode_sync f) (f_mode_async f) (f_serde f).
Proof. exact field_accepted. Qed.
Print Assumptions C55_field_accepted.

Definition C55_tokens : list tok :=
  [w "r#async"; c_;
   w "builder"; p_ [str "with_"; c_; w "attributes_fn"; p_ [w "inline"]; c_; w "public"; p_ [w "crate"]; c_;
                    w "into"; c_; w "post_build"; p_ [w "check"]; c_; w "error"; p_ [w "MyError"]]; c_;
   w "fallible"; p_ [w "error"; p_ [w "MyError"]]; c_; w "lazy"; p_ []; c_;
   w "get"; p_ [w "clone"]; c_;
   w "serde"; p_ [str "Dup"; c_; w "deserialize"; p_ [w "off"]]].
Example C55_case : exists s, struct_ok s /\ joined (w_struct s) = C55_tokens /\
  read_struct all_features C55_tokens = Some s /\ harmonious struct_conflicts (enabled_s s) /\
  allowed all_features (s_mode_sync s) (s_mode_async s) (s_serde s).
Proof.
  destruct (read_struct all_features C55_tokens) as [s|] eqn:E; [|discriminate].
  exists s. pose proof (struct_accepted _ _ _ E) as [H1 H2].
  cbv in E. inversion E; subst s. clear E. split; [|split; [reflexivity|split; [reflexivity|split; assumption]]].
  unfold struct_ok, opt_all, builder_ok, base_ok, accessor_ok, fallible_ok, serde_ok, error_ok, opt_all, pub_ok,
    ident_name, name_ok. cbn.
  intuition (try discriminate); repeat constructor; unfold name_ok; simpl; intuition discriminate.
Qed.
Example C55_field_case : exists f, field_ok f /\
  gathered [FList [w "sync"; c_; w "get"; p_ [str "x"; c_; w "copy"]]; FList [w "default"; p_ [w "off"; c_; str "d"]]] (w_field f)
  /\ read_field all_features "a" "" "u8" []
       [FList [w "sync"; c_; w "get"; p_ [str "x"; c_; w "copy"]]; FList [w "default"; p_ [w "off"; c_; str "d"]]] = Some f.
Proof.
  eexists. split; [|split; [|reflexivity]].
  - unfold field_ok, opt_all, base_ok, accessor_ok, opt_all, default_ok, quoted. cbn.
    repeat split; try (intuition discriminate); try (left; reflexivity). exists "d". reflexivity.
  - apply (ga_list _ _ [[w "sync"]; [w "get"; p_ [str "x"; c_; w "copy"]]] [[w "default"; p_ [w "off"; c_; str "d"]]]).
    + apply (args_more [w "sync"]); [one|]. apply args_last. one.
    + apply (ga_list _ _ [[w "default"; p_ [w "off"; c_; str "d"]]] []); [apply args_last; one|constructor].
Qed.

(** Three forms the documentation promises are refused whatever else is written:
    [public(some::module)] (fieldx_derive/src/lib.rs:66), [builder(init(...))] (213), and
    [builder(opt_in)] at a field, "consumed, but ignored" (582). *)
Theorem C55_documented_refuted : forall ft i v t a,
  read_struct ft [w "public"; p_ [w "some"; TPunct ":"; TPunct ":"; w "module"]] = None /\
  read_struct ft [w "builder"; p_ [w "init"; p_ [w "finish"]]] = None /\
  read_field ft i v t a [FList [w "builder"; p_ [w "opt_in"]]] = None.
Proof. intros. repeat split. Qed.
Print Assumptions C55_documented_refuted.

(** * C56: a word is the same as a word with nothing in parentheses *)
Theorem C56_struct_empty_partial : forall ft cs cs' ts ts', arguments cs ts -> arguments cs' ts' ->
  Forall2 emptied cs cs' -> read_struct ft ts = read_struct ft ts'.
Proof. exact struct_emptied. Qed.
Print Assumptions C56_struct_empty_partial.
Theorem C56_field_empty_partial : forall ft i v t a l l' cs cs', gathered l cs -> gathered l' cs' ->
  (In FWord l <-> In FWord l') -> Forall2 emptied cs cs' ->
  read_field ft i v t a l = read_field ft i v t a l'.
Proof. exact field_emptied. Qed.
Print Assumptions C56_field_empty_partial.
Example C56_case : Forall2 emptied [[w "get"]; [w "builder"]; [w "set"]] [[w "get"; p_ []]; [w "builder"]; [w "set"; TGroup DBrace []]] /\
  arguments [[w "get"]; [w "builder"]; [w "set"]] [w "get"; c_; w "builder"; c_; w "set"] /\
  exists s, read_struct no_features [w "get"; c_; w "builder"; c_; w "set"] = Some s.
Proof.
  split; [|split].
  - repeat constructor; try discriminate; try (unfold name_ok; simpl); try (simpl; intuition discriminate).
  - apply (args_more [w "get"]); [one|]. apply (args_more [w "builder"]); [one|]. apply args_last. one.
  - eexists. reflexivity.
Qed.

(** For the names left out it is false, and so it is for the sub-argument [post_build]. *)
Theorem C56_refuted :
  (exists s, read_struct no_features [w "public"] = Some s) /\ read_struct no_features [w "public"; p_ []] = None /\
  read_struct no_features [w "attributes"] = None /\ (exists s, read_struct no_features [w "attributes"; p_ []] = Some s) /\
  read_field no_features "a" "" "u8" [] [FList [w "rename"]] = None /\
  (exists f, read_field no_features "a" "" "u8" [] [FList [w "rename"; p_ []]] = Some f) /\
  (exists s, read_struct no_features [w "builder"; p_ [w "post_build"]] = Some s) /\
  read_struct no_features [w "builder"; p_ [w "post_build"; p_ []]] = None.
Proof. repeat split; try (eexists; reflexivity); reflexivity. Qed.
Print Assumptions C56_refuted.

(** * C57: default values *)
(** The default of a field is what stands in the parentheses: one literal or path, maybe
    with one group or an assignment after it, its text unchanged; off only with the word
    off in front. *)
Theorem C57_default : forall ft i v t a l f, read_field ft i v t a l = Some f ->
  exists cs, gathered l cs /\
    (forall dv, f_default f = Some dv <-> exists c, In c cs /\ default_form dv c) /\
    (forall c r, In c cs -> argument_for "default" c r -> exists dv, default_form dv c).
Proof. exact default_read. Qed.
Print Assumptions C57_default.
Example C57_case : exists f,
  read_field no_features "a" "" "u8" []
    [FList [w "default"; p_ [w "Self"; TPunct ":"; TPunct ":"; w "make"; p_ [TLit "1"; c_; w "a"; w "as"; w "u8"]]]] = Some f /\
  f_default f = Some (mk_defarg false (Some "Self::make(1,a as u8)") false).
Proof. eexists. split; reflexivity. Qed.
Example C57_off_case : exists f,
  read_field no_features "a" "" "u8" [] [FList [w "default"; p_ [w "off"; c_; str "x"]]] = Some f /\
  f_default f = Some (mk_defarg true (Some (quoted "x")) true).
Proof. eexists. split; reflexivity. Qed.

(** [default(off)] does not switch the default off: [off] is then the value. *)
Theorem C57_off_refuted : exists f,
  read_field no_features "a" "" "u8" [] [FList [w "default"; p_ [w "off"]]] = Some f /\
  f_default f = Some (mk_defarg false (Some "off") false) /\
  exists g, read_field no_features "a" "" "u8" [] [FList [w "get"; p_ [w "off"]]] = Some g /\
  option_map (fun x => h_off (a_base x)) (f_accessor g) = Some true.
Proof. eexists. split; [reflexivity|]. split; [reflexivity|]. eexists. split; reflexivity. Qed.
Print Assumptions C57_off_refuted.
(** An expression that is no literal, path or call is refused. *)
Theorem C57_expressions_refuted : forall ft i v t a,
  read_field ft i v t a [FList [w "default"; p_ [TLit "1"; TPunct "+"; TLit "2"]]] = None /\
  read_field ft i v t a [FList [w "default"; p_ [w "vec"; TPunct "!"; TGroup DBracket []]]] = None /\
  read_field ft i v t a [FList [w "default"; p_ [w "A"; TPunct ":"; TPunct ":"; w "new"; p_ []; TPunct "."; w "b"; p_ []]]] = None.
Proof. intros. repeat split. Qed.
Print Assumptions C57_expressions_refuted.

(** * C58: arguments that want a Cargo feature *)
(** Where the feature is missing the argument is refused, at the struct and at a field. *)
Theorem C58_struct_features : forall ft ts s, read_struct ft ts = Some s ->
  exists cs, arguments cs ts /\
    (forall c, In c cs -> keyword_form "sync" true c -> ft_sync ft = true) /\
    (forall c, In c cs -> keyword_form "r#async" true c -> ft_async ft = true) /\
    (forall x, s_serde s = Some x -> se_off x = false -> ft_serde ft = true).
Proof.
  intros ft ts s H. destruct (struct_keywords_read ft ts s H) as (cs & A & K).
  destruct (struct_accepted _ _ _ H) as [_ (F1 & F2 & F3)]. exists cs. split; [exact A|]. split; [|split; [|exact F3]].
  - intros c I F. apply F1. apply (proj1 (K "sync" s_mode_sync ltac:(simpl; tauto)) true). exists c. auto.
  - intros c I F. apply F2. apply (proj1 (K "r#async" s_mode_async ltac:(simpl; tauto)) true). exists c. auto.
Qed.
Print Assumptions C58_struct_features.
Theorem C58_field_features : forall ft i v t a l f, read_field ft i v t a l = Some f ->
  exists cs, gathered l cs /\
    (forall c, In c cs -> keyword_form "sync" true c -> ft_sync ft = true) /\
    (forall c, In c cs -> keyword_form "r#async" true c -> ft_async ft = true) /\
    (forall x, f_serde f = Some x -> se_off x = false -> ft_serde ft = true).
Proof.
  intros ft i v t a l f H. destruct (field_keywords_read ft i v t a l f H) as (cs & A & K).
  destruct (field_accepted _ _ _ _ _ _ _ H) as [_ (F1 & F2 & F3)]. exists cs. split; [exact A|]. split; [|split; [|exact F3]].
  - intros c I F. apply F1. apply (proj1 (K "sync" f_mode_sync ltac:(simpl; tauto)) true). exists c. auto.
  - intros c I F. apply F2. apply (proj1 (K "r#async" f_mode_async ltac:(simpl; tauto)) true). exists c. auto.
Qed.
Print Assumptions C58_field_features.
Example C58_case :
  read_struct no_features [w "sync"] = None /\ read_struct no_features [w "r#async"] = None /\
  read_struct no_features [w "serde"] = None /\ (exists s, read_struct (mk_features true false false) [w "sync"] = Some s) /\
  (exists s, read_struct no_features [w "sync"; p_ [w "off"]] = Some s) /\
  read_field no_features "a" "" "u8" [] [FList [w "sync"]] = None.
Proof. repeat split; try (eexists; reflexivity); reflexivity. Qed.
(** The other ways to ask for a sync or async struct are not checked. *)
Theorem C58_unchecked_refuted :
  (exists s, read_struct no_features [w "mode"; p_ [w "sync"]] = Some s /\ s_is_sync s = Some true) /\
  (exists s, read_struct no_features [w "mode"; p_ [w "async"]] = Some s /\ s_is_async s = Some true) /\
  (exists s, read_struct no_features [w "lock"] = Some s /\ s_is_sync s = Some true) /\
  (exists s, read_struct no_features [w "reader"] = Some s /\ s_is_sync s = Some true) /\
  (exists s, read_struct no_features [w "writer"] = Some s /\ s_is_sync s = Some true).
Proof. repeat split; eexists; split; reflexivity. Qed.
Print Assumptions C58_unchecked_refuted.
