(** Property C95: the types of helper arguments that the macro fxhelper makes. *)
From Coq Require Import List Bool String Arith Lia Permutation.
From Verif Require Import FxhSpec FxhModel FxhProofs.
From Verif Require ArgsModel ParseModel.
Import ListNotations.
Open Scope string_scope.
Open Scope list_scope.

(** ** C95 *)
(** The macro makes something of a declaration unless an option that is in a group has a type
    that is no path. *)
Theorem C95_expands : forall d, (exists e, expands d e) <-> forall f, In f (hd_fields d) -> hf_exclusive f <> None -> exists p, hf_ty f = HPath p.
Proof. exact expands_when. Qed.
Print Assumptions C95_expands.
(** It compiles exactly if no option is there twice, those of all helpers included, no trait is
    derived twice (Getters counting once if it is derived by this name), options in groups are
    Flags by this name or Options, and one called attributes is an Option. *)
Theorem C95_compiles : forall d e, expands d e ->
  (compiles e = true <->
   NoDup (common_options ++ map hf_name (hd_fields d)) /\
   (NoDup (["FromMeta"; "Clone"] ++ traits d) /\ (In "Getters" (traits d) -> In ["Getters"] (hd_derives d))) /\
   (forall f, In f (hd_fields d) -> hf_exclusive f <> None -> testable (hf_ty f)) /\
   (forall f, In f (hd_fields d) -> hf_name f = "attributes" -> optional_type (hf_ty f))).
Proof. exact compiles_when. Qed.
Print Assumptions C95_compiles.
(** Whatever the order of the groups, every value gets a verdict, and a right one: if it clashes
    the group named is one of which more than one option is set, and these are named in the
    order in which they are declared; its own check is asked only if nothing clashes. *)
Theorem C95_judges : forall d e v own, expands d e -> compiles e = true -> typed e v ->
  exists r, validate_helper own e v = Some r /\ judged (declared d) (is_set v) (own_says own d) r.
Proof. exact judges. Qed.
Print Assumptions C95_judges.
Theorem C95_accepts : forall d e v own, expands d e -> compiles e = true -> typed e v ->
  (validate_helper own e v = Some Fine <-> (forall g, ~ conflict (declared d) (is_set v) g) /\ own_says own d = true).
Proof. exact accepts. Qed.
Print Assumptions C95_accepts.
(** So whether a value is accepted does not depend on the order, nor does the message if only one
    group clashes; of several, each can be the one that is named. *)
Theorem C95_same : forall d e1 e2 v own, expands d e1 -> expands d e2 -> compiles e1 = true -> compiles e2 = true -> typed e1 v ->
  (forall g1 g2, conflict (declared d) (is_set v) g1 -> conflict (declared d) (is_set v) g2 -> g1 = g2) ->
  validate_helper own e1 v = validate_helper own e2 v.
Proof.
  intros d e1 e2 v own X1 X2 C1 C2 T U.
  assert (T2 : typed e2 v) by (destruct X1 as (m1 & g1 & _ & _ & ->); destruct X2 as (m2 & g2 & _ & _ & ->); exact T).
  destruct (judges d e1 v own X1 C1 T) as (r1 & -> & J1). destruct (judges d e2 v own X2 C2 T2) as (r2 & -> & J2).
  destruct r1 as [|a s|], r2 as [|b t|]; cbn in J1, J2; destruct J1 as [A1 B1], J2 as [A2 B2]; try reflexivity; try congruence;
    try (destruct (A1 _ A2)); try (destruct (A2 _ A1)).
  rewrite B1, B2, (U _ _ A1 A2). reflexivity.
Qed.
Print Assumptions C95_same.
Theorem C95_any_first : forall d e v own g, expands d e -> compiles e = true -> typed e v -> conflict (declared d) (is_set v) g ->
  exists e', expands d e' /\ compiles e' = true /\ typed e' v /\ validate_helper own e' v = Some (Clash g (chosen (declared d) (is_set v) g)).
Proof. exact any_first. Qed.
Print Assumptions C95_any_first.
Lemma looked_for : forall d, existsb (String.eqb "attributes") (map hf_name (hd_fields d)) = has_attributes d.
Proof.
  intro d. unfold has_attributes. generalize (hd_fields d) as l. intro l. induction l as [|f r IH]; [reflexivity|].
  cbn [map existsb]. rewrite IH, String.eqb_sym. reflexivity.
Qed.
(** attributes() gives the option of that name if it is declared, is_true says that off is not set. *)
Theorem C95_methods : forall d e v, expands d e -> compiles e = true -> typed e v ->
  helper_on v = Some (negb (is_set v "off")) /\
  attributes_given e v = Some (existsb (String.eqb "attributes") (map hf_name (hd_fields d)) && is_set v "attributes").
Proof.
  intros d e v (m & gs & G & P & ->) C T. split.
  - unfold helper_on. rewrite (can_tested _ v ("off", IsPresent) T eq_refl). reflexivity.
  - unfold attributes_given. cbn [emit em_attributes]. unfold compiles in C. apply andb_prop in C as [_ C]. cbn [emit em_attributes] in C.
    rewrite (looked_for d). destruct (has_attributes d); [|reflexivity]. cbn [negb orb] in C. exact (can_tested _ v ("attributes", IsSome) T C).
Qed.
Print Assumptions C95_methods.

(** *** The helpers of fieldx *)
(** The records of ArgsModel.v as values of what is emitted. *)
Definition opt_set {A} (o : option A) : fval := FOption (ArgsModel.is_some o).
Definition base_fields (h : ArgsModel.helper) : list (string * fval) :=
  [("name", opt_set (ArgsModel.h_name h)); ("off", FFlag (ArgsModel.h_off h)); ("attributes_fn", opt_set (ArgsModel.h_attributes_fn h));
   ("public", opt_set (ArgsModel.h_public h)); ("private", opt_set (ArgsModel.h_private h))].
Definition with_fields (l : list (string * fval)) (n : string) : option fval := ParseModel.assoc n l.
Definition base_value (h : ArgsModel.helper) : string -> option fval := with_fields (base_fields h).
Definition accessor_value (a : ArgsModel.accessor) : string -> option fval :=
  with_fields (base_fields (ArgsModel.a_base a) ++
    [("clone", FFlag (ArgsModel.a_clone a)); ("copy", FFlag (ArgsModel.a_copy a)); ("as_ref", FFlag (ArgsModel.a_as_ref a))]).
Definition setter_value (s : ArgsModel.setter) : string -> option fval :=
  with_fields (base_fields (ArgsModel.st_base s) ++ [("into", opt_set (ArgsModel.st_into s))]).
Definition builder_value (b : ArgsModel.builder) : string -> option fval :=
  with_fields (base_fields (ArgsModel.b_base b) ++
    [("attributes", opt_set (ArgsModel.b_attributes b)); ("attributes_impl", opt_set (ArgsModel.b_attributes_impl b));
     ("into", opt_set (ArgsModel.b_into b)); ("required", opt_set (ArgsModel.b_required b)); ("opt_in", opt_set (ArgsModel.b_opt_in b));
     ("post_build", opt_set (ArgsModel.b_post_build b)); ("error", opt_set (ArgsModel.b_error b))]).
(** FXBuilderHelper::validate by itself, builder_helper.rs:99-123. *)
Definition builder_check (on_struct : bool) (b : ArgsModel.builder) : bool :=
  on_struct || negb (ArgsModel.given (ArgsModel.b_error b)) && negb (ArgsModel.given (ArgsModel.b_post_build b)) && negb (ArgsModel.given (ArgsModel.b_opt_in b)).

Ltac goes_through I := repeat (destruct I as [I|I]; [injection I as <- <-; split; intro; try discriminate; eexists; reflexivity|]); destruct I.
Lemma base_typed : forall e h, expands base_decl e -> compiles e = true /\ typed e (base_value h).
Proof.
  intros e h (m & gs & G & P & ->). vm_compute in G. injection G as <-. split; [exact (compiles_any base_decl _ _ P eq_refl)|].
  intros n t I. goes_through I.
Qed.
Lemma accessor_typed : forall e a, expands accessor_decl e -> compiles e = true /\ typed e (accessor_value a).
Proof.
  intros e h (m & gs & G & P & ->). vm_compute in G. injection G as <-. split; [exact (compiles_any accessor_decl _ _ P eq_refl)|].
  intros n t I. goes_through I.
Qed.
Lemma setter_typed : forall e a, expands setter_decl e -> compiles e = true /\ typed e (setter_value a).
Proof.
  intros e h (m & gs & G & P & ->). vm_compute in G. injection G as <-. split; [exact (compiles_any setter_decl _ _ P eq_refl)|].
  intros n t I. goes_through I.
Qed.
Lemma builder_typed : forall e a, expands builder_decl e -> compiles e = true /\ typed e (builder_value a).
Proof.
  intros e h (m & gs & G & P & ->). vm_compute in G. injection G as <-. split; [exact (compiles_any builder_decl _ _ P eq_refl)|].
  intros n t I. goes_through I.
Qed.
(** With no group but the one of all helpers. *)
Lemma only_visibility : forall d v h, (forall f, In f (hd_fields d) -> hf_exclusive f = None) ->
  v "public" = Some (opt_set (ArgsModel.h_public h)) -> v "private" = Some (opt_set (ArgsModel.h_private h)) ->
  ((forall g, ~ conflict (declared d) (is_set v) g) <-> ArgsModel.helper_exclusives_ok h = true).
Proof.
  intros d v h X P Q.
  assert (F : forall g, filter (in_group g) (declared d) = []).
  { intro g. unfold declared. induction (hd_fields d) as [|f r IH]; [reflexivity|]. cbn [map filter]. unfold in_group at 1. cbn [snd].
    rewrite (X f (or_introl eq_refl)). apply IH. intros f' I. exact (X f' (or_intror I)). }
  assert (V : forall g, chosen (declared d) (is_set v) g = if String.eqb g "visibility" then filter (is_set v) ["public"; "private"] else []).
  { intro g. unfold chosen, members. rewrite F. cbn [map]. rewrite app_nil_r. destruct (String.eqb g "visibility"); reflexivity. }
  unfold conflict. split.
  - intro A. specialize (A "visibility"). rewrite V in A. cbn [String.eqb Ascii.eqb Bool.eqb filter] in A. unfold is_set in A. rewrite P, Q in A.
    unfold opt_set, ArgsModel.helper_exclusives_ok, ArgsModel.given in *.
    destruct (ArgsModel.is_some (ArgsModel.h_public h)), (ArgsModel.is_some (ArgsModel.h_private h)); cbn in A |- *; try reflexivity. destruct A. lia.
  - intros A g. rewrite V. destruct (String.eqb g "visibility"); [|cbn; lia]. cbn [filter]. unfold is_set. rewrite P, Q.
    unfold opt_set, ArgsModel.helper_exclusives_ok, ArgsModel.given in *.
    destruct (ArgsModel.is_some (ArgsModel.h_public h)), (ArgsModel.is_some (ArgsModel.h_private h)); cbn in A |- *; try lia; discriminate.
Qed.
(** The four helper types compile, have the options that the parser of ParseModel.v knows, and
    check what it checks, in every build. *)
Theorem C95_base : forall e own h, expands base_decl e ->
  compiles e = true /\ map fst (em_fields e) = ParseModel.helper_names /\
  (validate_helper own e (base_value h) = Some Fine <-> ArgsModel.helper_exclusives_ok h = true) /\
  helper_on (base_value h) = Some (ArgsModel.helper_is_true h).
Proof.
  intros e own h X. destruct (base_typed e h X) as [C T]. split; [exact C|]. split; [destruct X as (m & gs & _ & _ & ->); reflexivity|]. split; [|reflexivity].
  rewrite (accepts _ _ _ own X C T), <- (only_visibility base_decl (base_value h) h); [|intros f []|reflexivity|reflexivity].
  split; [intros [A _]; exact A|intro A; split; [exact A|reflexivity]].
Qed.
Print Assumptions C95_base.
Theorem C95_accessor : forall e own a, expands accessor_decl e ->
  compiles e = true /\ map fst (em_fields e) = ParseModel.helper_names ++ ["clone"; "copy"; "as_ref"] /\
  (validate_helper own e (accessor_value a) = Some Fine <-> ArgsModel.accessor_exclusives_ok a = true).
Proof.
  intros e own a X. destruct (accessor_typed e a X) as [C T]. split; [exact C|]. split; [destruct X as (m & gs & _ & _ & ->); reflexivity|].
  rewrite (accepts _ _ _ own X C T).
  set (p := ArgsModel.is_some (ArgsModel.h_public (ArgsModel.a_base a))). set (q := ArgsModel.is_some (ArgsModel.h_private (ArgsModel.a_base a))).
  assert (V : chosen (declared accessor_decl) (is_set (accessor_value a)) "visibility" = (if p then ["public"] else []) ++ (if q then ["private"] else [])).
  { unfold chosen, members. cbn. unfold is_set. cbn. fold p q. destruct p, q; reflexivity. }
  assert (M : chosen (declared accessor_decl) (is_set (accessor_value a)) "accessor mode" =
    (if ArgsModel.a_clone a then ["clone"] else []) ++ (if ArgsModel.a_copy a then ["copy"] else []) ++ (if ArgsModel.a_as_ref a then ["as_ref"] else [])).
  { unfold chosen, members. cbn. unfold is_set. cbn. destruct (ArgsModel.a_clone a), (ArgsModel.a_copy a), (ArgsModel.a_as_ref a); reflexivity. }
  assert (O : forall g, g <> "visibility" -> g <> "accessor mode" -> chosen (declared accessor_decl) (is_set (accessor_value a)) g = []).
  { intros g A B. unfold chosen, members. destruct (String.eqb g "visibility") eqn:E1; [apply String.eqb_eq in E1; congruence|].
    cbn [declared accessor_decl hd_fields map filter]. unfold in_group. cbn [snd hf_exclusive fst hf_name].
    destruct (String.eqb "accessor mode" g) eqn:E2; [apply String.eqb_eq in E2; congruence|]. reflexivity. }
  unfold ArgsModel.accessor_exclusives_ok, ArgsModel.helper_exclusives_ok, ArgsModel.given. fold p q. unfold conflict. split.
  - intros [A _]. pose proof (A "visibility") as A1. pose proof (A "accessor mode") as A2. rewrite V in A1. rewrite M in A2.
    destruct p, q; destruct (ArgsModel.a_clone a), (ArgsModel.a_copy a), (ArgsModel.a_as_ref a); cbn in A1, A2 |- *; try reflexivity; lia.
  - intro A. split; [|reflexivity]. intro g. destruct (string_dec g "visibility") as [->|N1]; [|destruct (string_dec g "accessor mode") as [->|N2]].
    + rewrite V. destruct p, q; cbn in A |- *; try lia; discriminate.
    + rewrite M. destruct p, q; cbn [negb andb] in A; try discriminate;
        destruct (ArgsModel.a_clone a), (ArgsModel.a_copy a), (ArgsModel.a_as_ref a); cbn in A |- *; try lia; discriminate.
    + rewrite (O g N1 N2). cbn. lia.
Qed.
Print Assumptions C95_accessor.
Theorem C95_setter : forall e own s, expands setter_decl e ->
  compiles e = true /\ map fst (em_fields e) = ParseModel.helper_names ++ ["into"] /\
  (validate_helper own e (setter_value s) = Some Fine <-> ArgsModel.helper_exclusives_ok (ArgsModel.st_base s) = true).
Proof.
  intros e own s X. destruct (setter_typed e s X) as [C T]. split; [exact C|]. split; [destruct X as (m & gs & _ & _ & ->); reflexivity|].
  rewrite (accepts _ _ _ own X C T), <- (only_visibility setter_decl (setter_value s) (ArgsModel.st_base s)); [|intros f [<-|[]]; reflexivity|reflexivity|reflexivity].
  split; [intros [A _]; exact A|intro A; split; [exact A|reflexivity]].
Qed.
Print Assumptions C95_setter.
Theorem C95_builder : forall e on_struct b, expands builder_decl e ->
  compiles e = true /\ map fst (em_fields e) = ParseModel.helper_names ++ ParseModel.builder_names /\
  (validate_helper (fun _ => builder_check on_struct b) e (builder_value b) = Some Fine <->
   ArgsModel.helper_exclusives_ok (ArgsModel.b_base b) && (on_struct || ArgsModel.field_builder_ok b) = true).
Proof.
  intros e st b X. destruct (builder_typed e b X) as [C T]. split; [exact C|]. split; [destruct X as (m & gs & _ & _ & ->); reflexivity|].
  rewrite (accepts _ _ _ _ X C T), (only_visibility builder_decl (builder_value b) (ArgsModel.b_base b));
    [|intros f I; repeat (destruct I as [<-|I]; [reflexivity|]); destruct I|reflexivity|reflexivity].
  unfold own_says. cbn [builder_decl hd_validate]. unfold builder_check, ArgsModel.field_builder_ok. rewrite andb_true_iff.
  destruct (ArgsModel.helper_exclusives_ok (ArgsModel.b_base b)); cbn [andb]; [reflexivity|]. split; intros [A _]; discriminate A.
Qed.
Print Assumptions C95_builder.

(** ** Cases *)
Definition two_clashes : ArgsModel.accessor :=
  ArgsModel.mk_accessor (ArgsModel.mk_helper false None None (Some ArgsModel.PMAll) (Some true)) true false true.
Definition accessor_groups : list hgroup :=
  [("visibility", [("public", IsSome); ("private", IsSome)]); ("accessor mode", [("clone", IsPresent); ("copy", IsPresent); ("as_ref", IsPresent)])].
Example C95_case :
  expands accessor_decl (emit accessor_decl accessor_groups) /\ expands accessor_decl (emit accessor_decl (rev accessor_groups)) /\
  compiles (emit accessor_decl accessor_groups) = true /\ typed (emit accessor_decl accessor_groups) (accessor_value two_clashes) /\
  validate_helper (fun _ => true) (emit accessor_decl accessor_groups) (accessor_value two_clashes) = Some (Clash "visibility" ["public"; "private"]) /\
  validate_helper (fun _ => true) (emit accessor_decl (rev accessor_groups)) (accessor_value two_clashes) = Some (Clash "accessor mode" ["clone"; "as_ref"]).
Proof.
  assert (X : expands accessor_decl (emit accessor_decl accessor_groups)).
  { exists accessor_groups, accessor_groups. split; [reflexivity|]. split; [apply Permutation_refl|reflexivity]. }
  split; [exact X|]. split. { exists accessor_groups, (rev accessor_groups). split; [reflexivity|]. split; [apply Permutation_rev|reflexivity]. }
  split; [reflexivity|]. split; [exact (proj2 (accessor_typed _ two_clashes X))|]. split; reflexivity.
Qed.
(** So [get(public, private, clone, as_ref)] is reported in one way by one build of fieldx_aux
    and in another way by another: the text of the error is not determined by the source. *)
Theorem C95_same_message_refuted : ~ (forall d e1 e2 v own, expands d e1 -> expands d e2 -> compiles e1 = true -> compiles e2 = true -> typed e1 v ->
  validate_helper own e1 v = validate_helper own e2 v).
Proof.
  intro A. destruct C95_case as (X1 & X2 & C & T & V1 & V2).
  specialize (A _ _ _ _ (fun _ => true) X1 X2 C eq_refl T). rewrite V1, V2 in A. discriminate A.
Qed.
Print Assumptions C95_same_message_refuted.
(** A Flag by a longer name is tested by a method it does not have. *)
Definition long_flag : hdecl := mk_hdecl "Odd" [] [mk_hfield "a" (HPath ["darling"; "util"; "Flag"]) (Some "g")] None.
Theorem C95_flags_compile_refuted : ~ (forall d e, expands d e -> NoDup (common_options ++ map hf_name (hd_fields d)) -> hd_derives d = [] ->
  (forall f, In f (hd_fields d) -> exists p, hf_ty f = HPath p /\ last_word p = "Flag") -> (forall f, In f (hd_fields d) -> hf_name f <> "attributes") -> compiles e = true).
Proof.
  intro A.
  assert (K : compiles (emit long_flag (push "g" ("a", IsSome) first_groups)) = true); [|vm_compute in K; discriminate K].
  apply (A long_flag).
  - exists (push "g" ("a", IsSome) first_groups), (push "g" ("a", IsSome) first_groups). split; [reflexivity|]. split; [apply Permutation_refl|reflexivity].
  - apply no_twice_nodup. reflexivity.
  - reflexivity.
  - intros f [<-|[]]. exists ["darling"; "util"; "Flag"]. split; reflexivity.
  - intros f [<-|[]]. discriminate.
Qed.
Print Assumptions C95_flags_compile_refuted.
(** An option may join the group of public and private; its own check is asked last. *)
Definition odd_decl : hdecl :=
  mk_hdecl "Odd" [["Debug"]; ["Getters"]] [mk_hfield "hidden" (HPath ["Flag"]) (Some "visibility"); mk_hfield "attributes" (HPath ["Option"]) None;
    mk_hfield "depth" (HPath ["std"; "option"; "Option"]) (Some "size")] (Some "Self::check").
Definition odd_value (p h : bool) (n : string) : option fval :=
  with_fields [("name", FOption false); ("off", FFlag true); ("attributes_fn", FOption false); ("public", FOption false); ("private", FOption p);
    ("hidden", FFlag h); ("attributes", FOption true); ("depth", FOption true)] n.
Example C95_odd_case : exists e, expands odd_decl e /\ compiles e = true /\ (forall p h, typed e (odd_value p h)) /\
  (forall own, validate_helper own e (odd_value true true) = Some (Clash "visibility" ["private"; "hidden"])) /\
  validate_helper (fun _ => false) e (odd_value false true) = Some Refused /\ validate_helper (fun _ => true) e (odd_value true false) = Some Fine /\
  helper_on (odd_value true true) = Some false /\ attributes_given e (odd_value true true) = Some true.
Proof.
  eexists. split. { eexists _, _. split; [vm_compute; reflexivity|]. split; [apply Permutation_refl|reflexivity]. }
  split; [reflexivity|]. split. { intros p h n t I. goes_through I. } repeat split.
Qed.
(** What does not compile: an option called off, one in a group that is neither Flag nor Option,
    Clone derived once more, Getters by a longer name; what makes nothing: a group with a
    type that is no path. *)
Example C95_bad_case :
  (forall gs, compiles (emit (mk_hdecl "A" [] [mk_hfield "off" (HPath ["Option"]) None] None) gs) = false) /\
  compiles (emit (mk_hdecl "A" [] [mk_hfield "a" (HPath ["bool"]) (Some "g")] None) (push "g" ("a", IsSome) first_groups)) = false /\
  compiles (emit (mk_hdecl "A" [["Clone"]] [] None) first_groups) = false /\
  compiles (emit (mk_hdecl "A" [["getset"; "Getters"]] [] None) first_groups) = false /\
  ~ (exists e, expands (mk_hdecl "A" [] [mk_hfield "a" HOther (Some "g")] None) e).
Proof.
  repeat (split; [reflexivity|]). rewrite expands_when. intro A. destruct (A (mk_hfield "a" HOther (Some "g"))) as (p & P); [left; reflexivity|discriminate|discriminate P].
Qed.
