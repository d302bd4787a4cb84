(** Properties of the token helpers: C42, C43, C44, C45. *)
From Coq Require Import List Bool String Permutation.
From Verif Require Import ArgsModel CtxModel ArgsFixtures ArgsProps RustAst CommonGen PlainGen SyncGen StructGen
  TokenSpec TokenModel TokenProofs.
Import ListNotations.
Open Scope string_scope.
Open Scope list_scope.

(** ** C42: Self in default expressions *)

(** fixup_self_type at any depth: for a struct whose parameters have no bounds, defaults
    or const types, and expressions that use Self only in front of [::], the result is
    the expression with the struct's type for Self and nothing else changed. *)
Theorem C42_fixup_partial : forall s ts, Forall bare_param (sd_generics s) ->
  self_in_paths (text ts) ->
  reads_as (struct_type s) (text ts) (text (fixup_self_type s ts)).
Proof. intros s ts H. now apply fixup_reads_iff. Qed.
(** Exactly those expressions. *)
Theorem C42_fixup_exact : forall s ts, Forall bare_param (sd_generics s) ->
  (reads_as (struct_type s) (text ts) (text (fixup_self_type s ts)) <-> self_in_paths (text ts)).
Proof. exact fixup_reads_iff. Qed.
(** An expression without Self is left as it is, for any struct. *)
Theorem C42_no_self : forall s ts, ~ In (AIdent "Self") (text ts) -> fixup_self_type s ts = ts.
Proof. exact fixup_identity. Qed.
Definition sep : list tok := [TPunct ":"; TPunct ":"].
(** vec![Self::one(), other(Self::two())] for Foo<'a, T>. *)
Definition nested : list tok :=
  [TIdent "vec"; TPunct "!";
   TGroup DBracket ([TIdent "Self"] ++ sep ++ [TIdent "one"; TGroup DParen []; TPunct ",";
     TIdent "other"; TGroup DParen ([TIdent "Self"] ++ sep ++ [TIdent "two"; TGroup DParen []])])].
Definition foo (t_bound : list tok) : struct_decl :=
  mk_struct_decl "Foo" [mk_gparam GLifetime "a" [] []; mk_gparam GType "T" t_bound []].
Definition foo_toks : list tok :=
  [TPunct "<"; TIdent "Foo"; TPunct "<"; TPunct "'"; TIdent "a"; TPunct ","; TIdent "T"; TPunct ">"; TPunct ">"].
Example nested_case :
  Forall bare_param (sd_generics (foo [])) /\ self_in_paths (text nested) /\
  fixup_self_type (foo []) nested =
    [TIdent "vec"; TPunct "!";
     TGroup DBracket (foo_toks ++ sep ++ [TIdent "one"; TGroup DParen []; TPunct ",";
       TIdent "other"; TGroup DParen (foo_toks ++ sep ++ [TIdent "two"; TGroup DParen []])])].
Proof.
  split; [repeat constructor; discriminate|]. split; [|reflexivity].
  intros b r E. vm_compute in E.
  repeat (destruct b as [|? b]; [discriminate E || (injection E as <-; eexists; reflexivity)|injection E as _ E]).
  destruct b; discriminate E.
Qed.
Example C42_no_self_case : ~ In (AIdent "Self") (text [TIdent "a"; TGroup DParen [TLit """Self"""]]).
Proof. vm_compute. intuition discriminate. Qed.

(** With a bound on a parameter Foo<'a, T: Clone> is written into the expression. *)
Theorem C42_bounds_refuted : exists s ts, self_in_paths (text ts) /\
  ~ reads_as (struct_type s) (text ts) (text (fixup_self_type s ts)).
Proof.
  exists (foo [TIdent "Clone"]), ([TIdent "Self"] ++ sep ++ [TIdent "one"; TGroup DParen []]). split.
  - intros b r E. vm_compute in E.
    repeat (destruct b as [|? b]; [discriminate E || (injection E as <-; eexists; reflexivity)|injection E as _ E]).
    destruct b; discriminate E.
  - vm_compute. intros H. inversion H; subst; congruence.
Qed.
(** A struct literal or a type argument: <Foo> { .. } and Vec<<Foo>> are not Rust. *)
Theorem C42_literal_refuted : exists s ts, Forall bare_param (sd_generics s) /\
  ~ reads_as (struct_type s) (text ts) (text (fixup_self_type s ts)).
Proof.
  exists (mk_struct_decl "Foo" []), [TIdent "Self"; TGroup DBrace []]. split; [constructor|].
  intro H. apply C42_fixup_exact in H; [|constructor].
  specialize (H [] [AOpen DBrace; AClose DBrace] eq_refl). destruct H as (r & E). discriminate E.
Qed.

(** Inside the builder of a plain field every default expression goes through the
    replacement. *)
Theorem C42_plain_builder : forall c f e lex s u, is_sync c f = false -> field_build_value c f = GOk e ->
  In u (user_parts e) ->
  option_map fst (default_value f) = Some (fst u) /\ user_toks lex s u = fixup_self_type s (lex (fst u)).
Proof.
  intros c f e lex s u Hs H Hu. unfold field_build_value in H. rewrite Hs in H. split.
  - exact (default_parts_plain _ _ _ H Hu).
  - unfold user_toks. apply plain_value_fixed in H. unfold all_fixed in H. rewrite forallb_forall in H.
    now rewrite (H u Hu).
Qed.
Definition self_def : option defarg := Some (mk_defarg false (Some "Self::one()") false).
Definition with_self (s : sargs) : sctx := ctx_of s [put_f_default self_def fa].
Definition with_build : sargs -> sargs := put_s_builder bld_on.
Example plain_builder_case :
  let c := with_self (with_build bare_sargs) in
  is_sync c (put_f_default self_def fa) = false /\
  exists e, field_build_value c (put_f_default self_def fa) = GOk e /\
    user_parts e = [("Self::one()", true)].
Proof. vm_compute. split; [reflexivity|]. eexists. split; reflexivity. Qed.
(** And so does the default of the shadow struct of serde, for every kind of field. *)
Theorem C42_shadow_default : forall c f lex s u, In u (user_parts (shadow_default (cfg_of c f))) ->
  user_toks lex s u = fixup_self_type s (lex (fst u)).
Proof.
  intros c f lex s u Hu. unfold user_toks. pose proof (shadow_value_fixed (cfg_of c f)) as H.
  unfold all_fixed in H. rewrite forallb_forall in H. now rewrite (H u Hu).
Qed.
Example shadow_default_case :
  user_parts (shadow_default (cfg_of (with_self bare_sargs) (put_f_default self_def fa))) = [("Self::one()", true)].
Proof. reflexivity. Qed.
(** Inside the builder of a sync field: exactly when the field is set through the builder
    and is lazy, or optional without a lock. *)
Theorem C42_sync_builder_exact : forall c f e d, is_sync c f = true -> field_build_value c f = GOk e ->
  default_value f = Some d ->
  ((forall u, In u (user_parts e) -> snd u = true) <->
   (forced_builder f = true \/ needs_builder c f = true) /\
   (is_lazy c f = true \/ needs_lock c f = false /\ is_optional c f = true)).
Proof.
  intros c f e d Hs H Hd. unfold field_build_value in H. rewrite Hs in H.
  pose proof (sync_value_fixed (cfg_of c f) e H (default_given c f)) as E.
  unfold left_as_is in E. cbn [g_default g_forced g_builder g_lazy g_lock g_optional cfg_of] in E. rewrite Hd in E.
  unfold all_fixed in E. rewrite <- forallb_forall. rewrite E.
  destruct (forced_builder f), (needs_builder c f), (is_lazy c f), (needs_lock c f), (is_optional c f);
    simpl; intuition congruence.
Qed.
(** Otherwise Self is left to mean the builder. *)
Theorem C42_sync_builder_refuted : exists c f e u, is_sync c f = true /\ field_build_value c f = GOk e /\
  In u (user_parts e) /\ forall lex s, user_toks lex s u = lex (fst u).
Proof.
  exists (with_self (with_build (put_s_mode_sync (Some true) bare_sargs))), (put_f_default self_def fa).
  eexists. exists ("Self::one()", false). vm_compute. repeat split. now left.
Qed.
Example sync_builder_lazy_case :
  let c := ctx_of (with_build (put_s_mode_sync (Some true) bare_sargs)) [put_f_lazy h_on (put_f_default self_def fa)] in
  let f := put_f_lazy h_on (put_f_default self_def fa) in
  is_sync c f = true /\ is_lazy c f = true /\ exists e, field_build_value c f = GOk e /\
    user_parts e = [("Self::one()", true)].
Proof. vm_compute. split; [reflexivity|]. split; [reflexivity|]. eexists. split; reflexivity. Qed.

(** ** C43: lists of attributes *)

(** Attributes without punctuation of their own, separated by commas, with or without a
    comma at the end, are found in order. *)
Theorem C43_split_partial : forall l ts, listed l ts -> Forall (Forall no_punct) l ->
  from_meta (MetaList ts) = AOk l.
Proof. intros l ts H1 H2. apply from_meta_iff. now apply listed_loosely. Qed.
Definition two_attrs : list (list tok) :=
  [[TIdent "derive"; TGroup DParen [TIdent "Clone"; TPunct ","; TIdent "Copy"]]; [TIdent "inline"]].
Example C43_split_case :
  listed two_attrs [TIdent "derive"; TGroup DParen [TIdent "Clone"; TPunct ","; TIdent "Copy"];
    TPunct ","; TIdent "inline"; TPunct ","] /\
  Forall (Forall no_punct) two_attrs.
Proof.
  split.
  - apply (listed_comma [_; _] [[TIdent "inline"]] [TIdent "inline"; TPunct ","]).
    + apply (attr_list [TIdent "derive"]); [|discriminate]. apply path_rel. constructor.
    + apply (listed_comma [TIdent "inline"] [] []); [|constructor].
      apply attr_word, path_rel. constructor.
  - repeat constructor; intros ? ?; discriminate.
Qed.
(** What is accepted, exactly: single words with at most one group, with any one
    punctuation character between them. *)
Theorem C43_exact : forall ts l, from_meta (MetaList ts) = AOk l <-> loosely_listed l ts.
Proof. exact from_meta_iff. Qed.
(** A path, [a = "b"]: well-formed attributes that make the macro panic. *)
Theorem C43_path_refuted : exists l ts, listed l ts /\ from_meta (MetaList ts) = APanics.
Proof.
  exists [[TIdent "rustfmt"; TPunct ":"; TPunct ":"; TIdent "skip"]], [TIdent "rustfmt"; TPunct ":"; TPunct ":"; TIdent "skip"].
  split; [|reflexivity]. apply listed_last, attr_word, path_rel. repeat constructor.
Qed.
Theorem C43_value_refuted : exists l ts, listed l ts /\ from_meta (MetaList ts) = APanics.
Proof.
  exists [[TIdent "doc"; TPunct "="; TLit """text"""]], [TIdent "doc"; TPunct "="; TLit """text"""].
  split; [|reflexivity]. apply listed_last. apply (attr_value [TIdent "doc"]). apply path_rel. constructor.
Qed.
(** [inline; cold] is no list of attributes but is taken for two of them. *)
Theorem C43_other_separator_refuted : exists ts l, from_meta (MetaList ts) = AOk l /\ forall l', ~ listed l' ts.
Proof.
  exists [TIdent "inline"; TPunct ";"; TIdent "cold"], [[TIdent "inline"]; [TIdent "cold"]].
  split; [reflexivity|]. intros l' H.
  assert (Hp : forall p, attr_path p -> p = [TIdent "inline"; TPunct ";"; TIdent "cold"] -> False).
  { intros p [q [s|s r Hr]|q Hq] E; discriminate E. }
  assert (Ha : forall a, attribute a -> a = [TIdent "inline"; TPunct ";"; TIdent "cold"] -> False).
  { intros a [p H1|p d g H1 H2|p s H1] E; [exact (Hp p H1 E)| |].
    - destruct H1 as [q [s|s r [s2|s2 r2 Hr2]]|q [s|s r Hr]]; discriminate E.
    - destruct H1 as [q [s'|s' r [s2|s2 r2 Hr2]]|q [s'|s' r Hr]]; discriminate E. }
  inversion H as [|a H1 E1 E2|a l ts H1 H2 E1 E2].
  - exact (Ha _ H1 eq_refl).
  - destruct a as [|t [|t2 [|t3 [|t4 a]]]]; try discriminate E2.
Qed.
(** Without parentheses the argument panics as well. *)
Theorem C43_word_refuted : from_meta MetaPath = APanics /\ from_meta MetaNameValue = APanics.
Proof. split; reflexivity. Qed.

(** ** C44: order of attributes *)
Theorem C44_derives_first : forall extra given,
  derives_first is_derive (extra ++ given) (all_attrs extra given).
Proof. exact all_attrs_derives_first. Qed.
(** In particular nothing is lost or repeated. *)
Theorem C44_permutation : forall extra given, Permutation (extra ++ given) (all_attrs extra given).
Proof.
  intros extra given. destruct (all_attrs_derives_first extra given) as (ds & os & H & ->).
  exact (parted_perm _ _ _ _ H).
Qed.
(** The comparison handed to sort_by is one: the library may panic or misorder otherwise. *)
Theorem C44_comparison : (forall a b, attr_cmp b a = CompOpp (attr_cmp a b)) /\
  (forall a b c x, attr_cmp a b = x -> attr_cmp b c = x -> attr_cmp a c = x).
Proof. exact (conj attr_cmp_sym attr_cmp_trans). Qed.
Definition at1 (s : string) : list tok := [TIdent s].
Definition der (s : string) : list tok := [TIdent "derive"; TGroup DParen [TIdent s]].
Example C44_case :
  all_attrs [at1 "x"] [at1 "a"; der "Clone"; [TIdent "derive"; TPunct ":"; TPunct ":"; TIdent "b"]; der "Debug"; at1 "c"]
  = [der "Clone"; der "Debug"; at1 "x"; at1 "a"; [TIdent "derive"; TPunct ":"; TPunct ":"; TIdent "b"]; at1 "c"].
Proof. reflexivity. Qed.

(** ** C45: internal identifiers *)
Theorem C45_unique : forall prefixes start, NoDup (unique_idents start prefixes).
Proof. exact unique_nodup. Qed.
(** Each starts with the prefix asked for. *)
Theorem C45_prefixes : forall prefixes start,
  Forall2 (fun p i => String.prefix p i = true) prefixes (unique_idents start prefixes).
Proof. exact unique_starts. Qed.
(** Prefixes that already end in a number do not collide with later ones. *)
Example C45_case :
  unique_idents 0 ["a"; "a"; "a_1"; pfx_unique "S"; pfx_field_default "S" "f"; pfx_shadow_default "S_1"; ""; "a"; "a"; "a"]
  = ["a_1"; "a_2"; "a_1_3"; "__S_fxsym_4"; "__S_f_default_5"; "S_1_default_6"; "_7"; "a_8"; "a_9"; "a_10"].
Proof. reflexivity. Qed.

Print Assumptions C42_fixup_partial.
Print Assumptions C42_fixup_exact.
Print Assumptions C42_no_self.
Print Assumptions C42_bounds_refuted.
Print Assumptions C42_literal_refuted.
Print Assumptions C42_plain_builder.
Print Assumptions C42_shadow_default.
Print Assumptions C42_sync_builder_exact.
Print Assumptions C42_sync_builder_refuted.
Print Assumptions C43_split_partial.
Print Assumptions C43_exact.
Print Assumptions C43_path_refuted.
Print Assumptions C43_value_refuted.
Print Assumptions C43_other_separator_refuted.
Print Assumptions C43_word_refuted.
Print Assumptions C44_derives_first.
Print Assumptions C44_permutation.
Print Assumptions C44_comparison.
Print Assumptions C45_unique.
Print Assumptions C45_prefixes.
