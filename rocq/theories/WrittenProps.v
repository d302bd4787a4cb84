(** C77: from the tokens of the attributes to the methods, their names, and the types.
    [struct_as ft ss s]: [s] is what the macro reads from tokens whose arguments are [ss].
    [read_as ft x f]: [f] is what it reads from the attributes [x] of a field. *)
From Coq Require Import List Bool String.
From Verif Require Import ArgsModel CtxModel ArgsSpec TokenSpec ParseInput ParseModel ParseSpec ParseForms GrammarSpec GrammarProps
  RustAst CommonGen StructGen AttrModel WrittenSpec WrittenProofs WrittenNames.
Import ListNotations.
Open Scope string_scope.
Open Scope list_scope.

(** The generator that makes the code of a field. *)
Theorem C77_mode : forall ft c ss all x f m,
  struct_as ft ss (c_args c) -> Forall2 (read_as ft) all (c_input_fields c) -> read_as ft x f ->
  (field_mode c f = m <-> made_for ss all x m).
Proof. exact (fun ft c ss all x f m HS HF R => w_mode ft c ss all HS HF x f R m). Qed.
Print Assumptions C77_mode.
(** The methods of a field are those asked for by the words written. *)
Theorem C77_methods : forall ft c ss all x f k ms,
  struct_as ft ss (c_args c) -> Forall2 (read_as ft) all (c_input_fields c) -> read_as ft x f ->
  field_methods c f = GOk ms -> (In k (map m_kind ms) <-> method_for ss all x k).
Proof. exact (fun ft c ss all x f k ms HS HF R => w_methods ft c ss all HS HF x f R k ms). Qed.
Print Assumptions C77_methods.
(** Their names. *)
Theorem C77_names : forall ft c ss x f ms m,
  struct_as ft ss (c_args c) -> read_as ft x f -> field_methods c f = GOk ms -> In m ms ->
  forall t, name_for ss x (f_ident f) (m_kind m) t <-> t = m_name m.
Proof. exact (fun ft c ss x f ms m HS R => w_method_name ft c ss HS x f R ms m). Qed.
Print Assumptions C77_names.
(** The name of the function that builds a lazy field. *)
Theorem C77_lazy_name : forall ft c ss x f,
  struct_as ft ss (c_args c) -> read_as ft x f -> is_lazy c f = true ->
  forall t, name_for ss x (f_ident f) KLazy t <-> t = helper_name c f KLazy.
Proof. exact (fun ft c ss x f HS R => w_lazy_name ft c ss HS x f R). Qed.
Print Assumptions C77_lazy_name.
(** The type of a field is the one type that the words ask for. *)
Theorem C77_type : forall ft c ss all x f t,
  struct_as ft ss (c_args c) -> Forall2 (read_as ft) all (c_input_fields c) -> read_as ft x f ->
  field_type c f = GOk t -> forall t', has_type ss all x t' <-> t' = t.
Proof. exact (fun ft c ss all x f t HS HF R => w_type ft c ss all HS HF x f R t). Qed.
Print Assumptions C77_type.
(** There is a builder if and only if one is asked for; *)
Theorem C77_builder : forall ft c ss all,
  struct_as ft ss (c_args c) -> Forall2 (read_as ft) all (c_input_fields c) ->
  ((exists l, In (AtBuilderStruct, l) (placed c)) <-> with_builder ss all).
Proof. exact w_builder_struct. Qed.
Print Assumptions C77_builder.
(** its setters are those asked for, *)
Theorem C77_setters : forall ft c ss x f,
  struct_as ft ss (c_args c) -> read_as ft x f -> NoDup (map f_ident (c_input_fields c)) -> In f (c_input_fields c) ->
  ((exists m, In (f_ident f, m) (builder_setters c)) <-> settable ss x).
Proof. exact (fun ft c ss x f HS R => w_settable ft c ss HS x f R). Qed.
Print Assumptions C77_setters.
(** and have the names asked for. *)
Theorem C77_setter_names : forall ft c ss x f m,
  struct_as ft ss (c_args c) -> read_as ft x f -> field_builder (cfg_of c f) = Some m ->
  forall t, name_for ss x (f_ident f) KBuilder t <-> t = m_name m.
Proof. exact (fun ft c ss x f m HS R => w_setter_name ft c ss HS x f R m). Qed.
Print Assumptions C77_setter_names.

(** ** A case *)
(** [#[fxstruct(lazy, get("the_"), clearer(off), builder(opt_in))]] with three fields:
    [#[fieldx(get(copy), clearer("forget"), rename("age"))]], [#[fieldx(r#async, lazy(off),
    reader, set(into), builder("with_b", off))]] and a bare [#[fieldx]] with
    [#[fieldx(inner_mut, predicate)]]. *)
Definition w_struct : list tok :=
  [ww "lazy"; cc; ww "get"; pp [ss "the_"]; cc; ww "clearer"; pp [ww "off"]; cc; ww "builder"; pp [ww "opt_in"]].
Definition w_a : list tok :=
  [ww "get"; pp [ww "copy"]; cc; ww "clearer"; pp [ss "forget"]; cc; ww "rename"; pp [ss "age"]].
Definition w_b : list tok :=
  [ww "r#async"; cc; ww "lazy"; pp [ww "off"]; cc; ww "reader"; cc; ww "set"; pp [ww "into"]; cc;
   ww "builder"; pp [ss "with_b"; cc; ww "off"]].
Definition w_c : list tok := [ww "inner_mut"; cc; ww "predicate"].
Definition w_sources : list source :=
  [ mk_source [FList w_a] (terminated w_a ++ []); mk_source [FList w_b] (terminated w_b ++ []);
    mk_source [FWord; FList w_c] (terminated w_c ++ []) ].
Definition w_read (i : string) (x : source) : list field :=
  match read_field every_feature i "" "u8" [] (so_attrs x) with Some f => [f] | None => [] end.
Definition w_fields : list field :=
  flat_map (fun p => w_read (fst p) (snd p)) (combine ["a"; "b"; "c"] w_sources).
Definition w_ctx : sctx :=
  match read_struct every_feature w_struct with
  | Some s => mk_sctx "S" "pub" s w_fields
  | None => mk_sctx "S" "pub" (mk_sargs None None None None None None None None None None None None None None None
      None None None None None None None None None None None None) w_fields
  end.
Lemma w_arguments ts : forallb (fun c => match c with [] => false | _ => true end) (terminated ts) = true ->
  arguments (terminated ts) ts.
Proof.
  intros E. apply (terminated_arguments (List.length ts)); [apply le_n|]. intros c I ->.
  rewrite forallb_forall in E. discriminate (E _ I).
Qed.
Lemma w_struct_as : struct_as every_feature (terminated w_struct) (c_args w_ctx).
Proof. exists w_struct. split; [apply w_arguments; reflexivity|vm_compute; reflexivity]. Qed.
Lemma w_read_as : Forall2 (read_as every_feature) w_sources (c_input_fields w_ctx).
Proof.
  repeat constructor; try (do 4 eexists; vm_compute; reflexivity); apply w_arguments; reflexivity.
Qed.
Definition w_view (f : field) :=
  (field_mode w_ctx f,
   match field_type w_ctx f with GOk t => Some t | _ => None end,
   match field_methods w_ctx f with GOk ms => map (fun m => (m_kind m, m_name m)) ms | _ => [] end,
   option_map m_name (field_builder (cfg_of w_ctx f)), helper_name w_ctx f KLazy).
(** The hypotheses of all the theorems hold, and what is made is this: the second field makes
    the whole struct sync, except for the third. *)
Example C77_case :
  struct_as every_feature (terminated w_struct) (c_args w_ctx) /\
  Forall2 (read_as every_feature) w_sources (c_input_fields w_ctx) /\
  NoDup (map f_ident (c_input_fields w_ctx)) /\
  map w_view (c_input_fields w_ctx) =
    [ (MSync, Some (TProxy false false), [(KAccessor, "the_age"); (KClearer, "forget")], None, "build_age");
      (MAsync, Some (TLock true TT), [(KAccessor, "the_b"); (KReader, "read_b"); (KSetter, "set_b")], Some "with_b", "build_b");
      (MPlain, Some (TCell TT), [(KAccessor, "the_c")], None, "build_c") ].
Proof.
  split; [exact w_struct_as|]. split; [exact w_read_as|]. split; [|vm_compute; reflexivity].
  vm_compute. repeat constructor; simpl; intuition discriminate.
Qed.
(** Read back through the theorems: the words ask for the accessor of the third field, and not
    for its predicate, although that is written. *)
Example C77_back : exists x f, nth_error w_sources 2 = Some x /\ nth_error (c_input_fields w_ctx) 2 = Some f /\
  method_for (terminated w_struct) w_sources x KAccessor /\ ~ method_for (terminated w_struct) w_sources x KPredicate /\
  on_in "predicate" (so_args x) /\ has_type (terminated w_struct) w_sources x (TCell TT) /\
  made_for (terminated w_struct) w_sources x MPlain /\ name_for (terminated w_struct) x "c" KAccessor "the_c" /\
  with_builder (terminated w_struct) w_sources /\ ~ settable (terminated w_struct) x.
Proof.
  assert (W := w_read_as). destruct (c_input_fields w_ctx) as [|f1 [|f2 [|f [|]]]] eqn:E; try discriminate.
  inversion W as [|x1 y1 l1 m1 R1 W1]; subst. inversion W1 as [|x2 y2 l2 m2 R2 W2]; subst. inversion W2 as [|x y l3 m3 R W3]; subst.
  clear W W1 W2 W3 R1 R2. exists (mk_source [FWord; FList w_c] (terminated w_c ++ [])), f.
  set (x := mk_source _ _) in *.
  pose proof w_struct_as as HS. pose proof w_read_as as HF. assert (F : f = nth 2 (c_input_fields w_ctx) f) by (rewrite E; reflexivity).
  split; [reflexivity|]. split; [reflexivity|].
  assert (M : exists ms, field_methods w_ctx f = GOk ms /\ map m_kind ms = [KAccessor] /\ map m_name ms = ["the_c"]).
  { rewrite F. eexists. split; [vm_compute; reflexivity|]. split; reflexivity. }
  destruct M as (ms & M & K & N).
  split; [apply (C77_methods _ _ _ _ _ _ KAccessor ms HS HF R M); rewrite K; left; reflexivity|].
  split; [intros Q; apply (C77_methods _ _ _ _ _ _ KPredicate ms HS HF R M) in Q; rewrite K in Q; simpl in Q; intuition discriminate|].
  split; [exists [ww "predicate"], []; split; [right; left; reflexivity|]; split; [constructor|]; intros (d & ts & cs & c & Q & _); discriminate|].
  split; [apply (C77_type _ _ _ _ _ _ (TCell TT) HS HF R); [rewrite F; vm_compute; reflexivity|reflexivity]|].
  split; [apply (C77_mode _ _ _ _ _ _ MPlain HS HF R); rewrite F; vm_compute; reflexivity|].
  split.
  { destruct ms as [|m [|]]; try discriminate. injection K as K. injection N as N.
    pose proof (C77_names _ _ _ _ _ _ m HS R M (or_introl eq_refl) "the_c") as T. rewrite K in T.
    replace (f_ident f) with "c" in T by (rewrite F; vm_compute; reflexivity). apply T. symmetry. exact N. }
  split.
  { apply (C77_builder _ _ _ _ HS HF). eexists. vm_compute. right. left. reflexivity. }
  intros Q. apply (C77_setters _ _ _ _ _ HS R) in Q.
  - destruct Q as (m & Q). rewrite F in Q. vm_compute in Q. intuition discriminate.
  - vm_compute. repeat constructor; simpl; intuition discriminate.
  - rewrite E. right. right. left. reflexivity.
Qed.
