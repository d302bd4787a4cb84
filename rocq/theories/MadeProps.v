(** C80, C81: from the tokens of the attributes to what is made for the struct as a whole. *)
From Coq Require Import List Bool String.
From Verif Require Import ArgsModel CtxModel ArgsSpec TokenSpec ParseInput ParseModel ParseSpec ParseForms GrammarSpec GrammarProps
  RustAst CommonGen StructGen CopyModel WrittenSpec WrittenProofs WrittenNames WrittenProps SignSpec SignProps
  MadeModel MadeSpec MadeProofs MadeSerde.
Import ListNotations.
Open Scope string_scope.
Open Scope list_scope.

(** ** C80 *)
(** Default is implemented for the struct exactly if the words ask for it and there is a field. *)
Theorem C80_default : forall ft c ss all,
  struct_as ft ss (c_args c) -> Forall2 (read_as ft) all (c_input_fields c) ->
  (has_default_impl c = true <-> with_default ss all /\ (all <> [] \/ on_in "rc" ss)).
Proof. exact w_default_impl. Qed.
Print Assumptions C80_default.
(** The constructor: none, [new] or a hidden one. *)
Theorem C80_constructor : forall ft c ss all,
  struct_as ft ss (c_args c) -> Forall2 (read_as ft) all (c_input_fields c) ->
  forall o, constructor ss all o <-> o = new_fn c.
Proof. exact w_new. Qed.
Print Assumptions C80_constructor.
(** The struct is reference-counted exactly if told, and the method giving the reference to itself
    has the name told. *)
Theorem C80_counted : forall ft c ss,
  struct_as ft ss (c_args c) ->
  (s_is_ref_counted (c_args c) = true <-> on_in "rc" ss) /\
  (on_in "rc" ss -> forall t, counted_name ss t <-> myself_name c = Some t).
Proof.
  intros ft c ss HS. split; [exact (w_rc ft c ss HS)|]. intros O. apply (w_myself ft c ss HS), (w_rc ft c ss HS), O.
Qed.
Print Assumptions C80_counted.
(** build() refuses while a field is missing exactly if the field is demanded. *)
Theorem C80_demanded : forall ft c ss x f,
  struct_as ft ss (c_args c) -> read_as ft x f -> NoDup (map f_ident (c_input_fields c)) -> In f (c_input_fields c) ->
  (In (f_ident f) (builder_checked c) <-> demanded ss x).
Proof. exact (fun ft c ss x f HS R => w_checked ft c ss HS x f R). Qed.
Print Assumptions C80_demanded.

(** ** C81 *)
(** What is derived, for the struct and for its shadow, and what goes through the shadow. *)
Theorem C81_derived : forall ft c ss,
  struct_as ft ss (c_args c) -> forall d,
  (In d (serde_derives c) <-> (d = "Serialize" /\ writes ss) \/ (d = "Deserialize" /\ reads ss)) /\
  (In d (serde_through c) <-> (d = "into" /\ writes ss) \/ (d = "from" /\ reads ss)).
Proof. exact (fun ft c ss HS d => conj (w_derives ft c ss HS d) (w_through ft c ss HS d)). Qed.
Print Assumptions C81_derived.
(** The conversions written for it. *)
Theorem C81_conversions : forall ft c ss,
  struct_as ft ss (c_args c) ->
  (into_shadow_emitted c = true <-> writes ss) /\ (from_shadow_emitted c = true <-> reads ss).
Proof. exact (fun ft c ss HS => conj (w_writes ft c ss HS) (w_reads ft c ss HS)). Qed.
Print Assumptions C81_conversions.
(** The shadow: its name, its visibility, its Default. *)
Theorem C81_shadow : forall ft c ss all,
  struct_as ft ss (c_args c) -> Forall2 (read_as ft) all (c_input_fields c) ->
  (forall v, shadow_made c = Some v <-> with_serde ss /\ shadow_visible ss v) /\
  (forall t, shadow_called ss (c_ident c) t <-> t = shadow_ident c) /\
  (shadow_default_impl c = true <-> with_serde ss /\ with_default ss all).
Proof.
  exact (fun ft c ss all HS HF => conj (w_shadow ft c ss HS) (conj (w_shadow_name ft c ss HS) (w_shadow_default ft c ss HS all HF))).
Qed.
Print Assumptions C81_shadow.
(** The fields of the shadow and their types. *)
Theorem C81_fields : forall ft c ss x f,
  struct_as ft ss (c_args c) -> read_as ft x f -> NoDup (map f_ident (c_input_fields c)) -> In f (c_input_fields c) ->
  forall t, In (f_ident f, t) (shadow_fields c) <-> takes_part ss x /\ shadow_as ss x t.
Proof. exact (fun ft c ss x f HS R => w_in_shadow ft c ss HS x f R). Qed.
Print Assumptions C81_fields.
(** Which of them are copied from the struct, for which the lazy value is built first, and which
    are copied back. *)
Theorem C81_copied : forall ft c ss x f,
  struct_as ft ss (c_args c) -> read_as ft x f -> NoDup (map f_ident (c_input_fields c)) -> In f (c_input_fields c) ->
  (In (f_ident f) (lit_idents (into_shadow_literal c)) <-> written_out ss x) /\
  (In (f_ident f) (map fst (into_shadow_inits c)) <-> written_out ss x /\ lazily ss x) /\
  (In (f_ident f) (lit_idents (from_shadow_literal c)) <-> read_in ss x).
Proof.
  exact (fun ft c ss x f HS R D I => conj (w_into_literal ft c ss HS x f R D I) (conj (w_built ft c ss HS x f R D I) (w_from_literal ft c ss HS x f R D I))).
Qed.
Print Assumptions C81_copied.
(** What serde itself is told to skip: the ways the field does not go, never both. *)
Theorem C81_skips : forall ft c ss x f,
  struct_as ft ss (c_args c) -> read_as ft x f -> takes_part ss x -> forall a b, shadow_skip c f = (a, b) ->
  (a = true <-> ~ written_out ss x) /\ (b = true <-> ~ read_in ss x) /\ a && b = false.
Proof.
  intros ft c ss x f HS R T a b E. destruct (w_skips ft c ss HS x f R T a b E) as [A B].
  split; [exact A|]. split; [exact B|]. pose proof (w_some_way ft c ss HS x f R T) as W.
  destruct a, b; try reflexivity. exfalso. intuition.
Qed.
Print Assumptions C81_skips.

(** ** Cases *)
(** [#[fxstruct(sync, builder, no_new, serde("Dto", public(crate)))]] and the fields
    [#[fieldx(default("x"))]], [#[fieldx(serde(serialize(off)))]], [#[fieldx(lazy, serde(deserialize(off)))]],
    [#[fieldx(skip)]], [#[fieldx(builder(off), optional, serde(off))]] and
    [#[fieldx(optional, builder(required), serde(serialize))]]. *)
Definition m_struct : list tok :=
  [ww "sync"; cc; ww "builder"; cc; ww "no_new"; cc; ww "serde"; pp [ss "Dto"; cc; ww "public"; pp [ww "crate"]]].
Definition m_a : list tok := [ww "default"; pp [ss "x"]].
Definition m_b : list tok := [ww "serde"; pp [ww "serialize"; pp [ww "off"]]].
Definition m_c : list tok := [ww "lazy"; cc; ww "serde"; pp [ww "deserialize"; pp [ww "off"]]].
Definition m_d : list tok := [ww "skip"].
Definition m_e : list tok := [ww "builder"; pp [ww "off"]; cc; ww "optional"; cc; ww "serde"; pp [ww "off"]].
Definition m_f : list tok := [ww "optional"; cc; ww "builder"; pp [ww "required"]; cc; ww "serde"; pp [ww "serialize"]].
Definition m_sources : list source :=
  map (fun t => mk_source [FList t] (terminated t ++ [])) [m_a; m_b; m_c; m_d; m_e; m_f].
Definition m_fields : list field :=
  flat_map (fun p => w_read (fst p) (snd p)) (combine ["a"; "b"; "c"; "d"; "e"; "f"] m_sources).
Definition m_ctx : sctx :=
  match read_struct every_feature m_struct with
  | Some s => mk_sctx "S" "pub" s m_fields
  | None => w_ctx
  end.
Lemma m_struct_as : struct_as every_feature (terminated m_struct) (c_args m_ctx).
Proof. exists m_struct. split; [apply w_arguments; reflexivity|vm_compute; reflexivity]. Qed.
Lemma m_row t i f : forallb (fun c => match c with [] => false | _ => true end) (terminated t) = true ->
  read_field every_feature i "" "u8" [] [FList t] = Some f -> read_as every_feature (mk_source [FList t] (terminated t ++ [])) f.
Proof.
  intros A E. split; [|do 4 eexists; exact E]. unfold sourced. simpl. apply ga_list; [apply w_arguments, A|constructor].
Qed.
Lemma m_read_as : Forall2 (read_as every_feature) m_sources (c_input_fields m_ctx).
Proof.
  apply Forall2_cons; [apply (m_row _ "a"); [reflexivity|vm_compute; reflexivity]|].
  apply Forall2_cons; [apply (m_row _ "b"); [reflexivity|vm_compute; reflexivity]|].
  apply Forall2_cons; [apply (m_row _ "c"); [reflexivity|vm_compute; reflexivity]|].
  apply Forall2_cons; [apply (m_row _ "d"); [reflexivity|vm_compute; reflexivity]|].
  apply Forall2_cons; [apply (m_row _ "e"); [reflexivity|vm_compute; reflexivity]|].
  apply Forall2_cons; [apply (m_row _ "f"); [reflexivity|vm_compute; reflexivity]|].
  apply Forall2_nil.
Qed.
Lemma m_named : map f_ident (c_input_fields m_ctx) = ["a"; "b"; "c"; "d"; "e"; "f"].
Proof. vm_compute. reflexivity. Qed.
Lemma m_apart : NoDup (map f_ident (c_input_fields m_ctx)).
Proof. rewrite m_named. repeat constructor; simpl; intuition discriminate. Qed.
Example C80_case :
  struct_as every_feature (terminated m_struct) (c_args m_ctx) /\
  Forall2 (read_as every_feature) m_sources (c_input_fields m_ctx) /\
  NoDup (map f_ident (c_input_fields m_ctx)) /\
  has_default_impl m_ctx = true /\ new_fn m_ctx = Some "__fieldx_new" /\ on_in "no_new" (terminated m_struct) /\
  builder_checked m_ctx = ["b"; "f"].
Proof.
  split; [exact m_struct_as|]. split; [exact m_read_as|]. split; [exact m_apart|].
  split; [vm_compute; reflexivity|]. split; [vm_compute; reflexivity|]. split; [|vm_compute; reflexivity].
  pose proof (s_no_new_word every_feature m_ctx (terminated m_struct) m_struct_as) as N.
  assert (E : s_no_new (c_args m_ctx) = Some true) by (vm_compute; reflexivity). rewrite E in N. exact (proj2 N).
Qed.
(** [#[fxstruct(rc("me"))]] without fields: Default and [new] are there for the hidden field alone. *)
Definition m3_struct : list tok := [ww "rc"; pp [ss "me"]].
Definition m3_ctx : sctx :=
  match read_struct every_feature m3_struct with
  | Some s => mk_sctx "S" "pub" s []
  | None => w_ctx
  end.
Example C80_alone :
  struct_as every_feature (terminated m3_struct) (c_args m3_ctx) /\ has_default_impl m3_ctx = true /\ new_fn m3_ctx = Some "new" /\
  on_in "rc" (terminated m3_struct) /\ counted_name (terminated m3_struct) "me" /\ ~ counted_name (terminated m3_struct) "myself".
Proof.
  assert (HS : struct_as every_feature (terminated m3_struct) (c_args m3_ctx))
    by (exists m3_struct; split; [apply w_arguments; reflexivity|vm_compute; reflexivity]).
  destruct (C80_counted _ _ _ HS) as [A B]. assert (O : on_in "rc" (terminated m3_struct)) by (apply A; vm_compute; reflexivity).
  split; [exact HS|]. split; [vm_compute; reflexivity|]. split; [vm_compute; reflexivity|]. split; [exact O|].
  rewrite !(B O). split; [vm_compute; reflexivity|vm_compute; discriminate].
Qed.
Example C81_case :
  serde_derives m_ctx = ["Serialize"; "Deserialize"] /\ serde_through m_ctx = ["from"; "into"] /\
  shadow_made m_ctx = Some "pub(crate)" /\ shadow_ident m_ctx = "Dto" /\ shadow_default_impl m_ctx = true /\
  shadow_fields m_ctx = [("a", TT); ("b", TT); ("c", TOpt TT); ("f", TOpt TT)] /\
  lit_idents (into_shadow_literal m_ctx) = ["a"; "c"; "f"] /\ map fst (into_shadow_inits m_ctx) = ["c"] /\
  lit_idents (from_shadow_literal m_ctx) = ["a"; "b"] /\
  map (shadow_skip m_ctx) (c_input_fields m_ctx) =
    [(false, false); (true, false); (false, true); (true, true); (true, true); (false, true)].
Proof. repeat split; vm_compute; reflexivity. Qed.
(** Read back: the words demand a value for the last field though it is optional, and naming only
    one direction turns the other one off. *)
Example C81_back : exists x, nth_error m_sources 5 = Some x /\
  demanded (terminated m_struct) x /\ optionally (terminated m_struct) x /\
  takes_part (terminated m_struct) x /\ written_out (terminated m_struct) x /\ ~ read_in (terminated m_struct) x /\
  shadow_called (terminated m_struct) "S" "Dto" /\ ~ shadow_called (terminated m_struct) "S" "__SShadow".
Proof.
  destruct (nth_error (c_input_fields m_ctx) 5) as [f|] eqn:EF; [|vm_compute in EF; discriminate].
  destruct (nth_error m_sources 5) as [x|] eqn:EX; [|discriminate].
  pose proof (pair_at _ _ _ m_read_as 5 x f EX EF) as R. pose proof (nth_error_In _ _ EF) as I.
  exists x. split; [reflexivity|].
  assert (B : option_map (fun f => (f_ident f, is_optional m_ctx f, is_serde m_ctx f, is_serde m_ctx f && needs_serialize m_ctx f,
    is_serde m_ctx f && needs_deserialize m_ctx f)) (nth_error (c_input_fields m_ctx) 5) = Some ("f", true, true, true, false))
    by (vm_compute; reflexivity).
  rewrite EF in B. cbn [option_map] in B. injection B as B1 B2 B3 B4 B5.
  assert (Q : builder_checked m_ctx = ["b"; "f"]) by (vm_compute; reflexivity).
  split; [apply (proj1 (C80_demanded every_feature m_ctx (terminated m_struct) x f m_struct_as R m_apart I)); rewrite B1, Q; right; left; reflexivity|].
  split; [exact (proj1 (w_optional every_feature m_ctx (terminated m_struct) m_struct_as x f R) B2)|].
  split; [exact (proj1 (w_takes_part every_feature m_ctx (terminated m_struct) m_struct_as x f R) B3)|].
  split; [exact (proj1 (w_written_out every_feature m_ctx (terminated m_struct) m_struct_as x f R) B4)|].
  split; [rewrite <- (w_read_in every_feature m_ctx (terminated m_struct) m_struct_as x f R), B5; discriminate|].
  pose proof (w_shadow_name every_feature m_ctx (terminated m_struct) m_struct_as) as N.
  assert (E : c_ident m_ctx = "S") by (vm_compute; reflexivity). rewrite E in N.
  assert (K : shadow_ident m_ctx = "Dto") by (vm_compute; reflexivity). rewrite K in N. rewrite !N. split; [reflexivity|discriminate].
Qed.
(** [#[fxstruct(no_new, serde(deserialize(off)))]] with one field [#[fieldx(get)]]: no Default and
    no constructor, and the struct is only written. *)
Definition m2_struct : list tok := [ww "no_new"; cc; ww "serde"; pp [ww "deserialize"; pp [ww "off"]]].
Definition m2_source : source := mk_source [FList [ww "get"]] (terminated [ww "get"] ++ []).
Definition m2_ctx : sctx :=
  match read_struct every_feature m2_struct with
  | Some s => mk_sctx "S" "pub" s (w_read "a" m2_source)
  | None => w_ctx
  end.
Example C80_none :
  struct_as every_feature (terminated m2_struct) (c_args m2_ctx) /\ Forall2 (read_as every_feature) [m2_source] (c_input_fields m2_ctx) /\
  ~ with_default (terminated m2_struct) [m2_source] /\ constructor (terminated m2_struct) [m2_source] None /\
  writes (terminated m2_struct) /\ ~ reads (terminated m2_struct) /\ shadow_made m2_ctx = Some "".
Proof.
  assert (HS : struct_as every_feature (terminated m2_struct) (c_args m2_ctx))
    by (exists m2_struct; split; [apply w_arguments; reflexivity|vm_compute; reflexivity]).
  assert (HF : Forall2 (read_as every_feature) [m2_source] (c_input_fields m2_ctx))
    by (apply Forall2_cons; [apply (m_row _ "a"); [reflexivity|vm_compute; reflexivity]|apply Forall2_nil]).
  split; [exact HS|]. split; [exact HF|].
  split; [rewrite <- (w_default _ _ _ _ HS HF); vm_compute; discriminate|].
  split; [apply (w_new _ _ _ _ HS HF); vm_compute; reflexivity|].
  split; [apply (w_writes _ _ _ HS); vm_compute; reflexivity|].
  split; [rewrite <- (w_reads _ _ _ HS); vm_compute; discriminate|vm_compute; reflexivity].
Qed.
