(** C88: every generated function has a name of its own, and every lazy field is tied to
    the user's method of that field. *)
From Coq Require Import List Bool String Ascii.
From Verif Require Import ArgsModel CtxModel RustAst ArgsSpec ArgsFixtures ArgsProps CommonGen StructGen
  NameModel MacroModel MacroSpec NameProofs MacroProofs MacroProps ItemModel ItemSpec ItemProofs.
Import ListNotations.
Open Scope string_scope.

(** Full statement: in every struct the macro accepts no two generated functions have the
    same name, nor the name of a method the user has to write.  Missing: names chosen by
    the user or fields called like something generated; refuted below.  Here: all structs
    without chosen names whose fields are called [quiet]ly. *)
Theorem C88_distinct_partial : forall c ss, ok_input c -> calm c ss ->
  (exists names, map (item_ident c) (items c) = map GOk names /\ NoDup names)
  /\ forall f s i, In f (c_input_fields c) -> stem f s -> In i (items c) -> item_ident c i <> GOk ("build_" ++ s).
Proof.
  intros c ss ok K. split; [exact (items_distinct c ss ok K)|]. intros f s i. exact (lazy_free c ss ok K f s i).
Qed.
Print Assumptions C88_distinct_partial.

(** Which two of the promised names are the same, exactly. *)
Theorem C88_meet : forall k k' s t, In k struct_kinds -> In k' struct_kinds -> k <> k' ->
  (documented_name k s = documented_name k' t <->
   (k = KAccessor /\ s = documented_name k' t) \/ (k' = KAccessor /\ t = documented_name k s)
   \/ (k = KAccessorMut /\ mut_meets s k' t) \/ (k' = KAccessorMut /\ mut_meets t k s)).
Proof. exact meet. Qed.
Print Assumptions C88_meet.

(** The functions of the builder, exactly. *)
Theorem C88_builder : forall c ss, ok_input c -> Forall2 stem (setter_fields c) ss ->
  (forall f, In f (setter_fields c) -> unnamed c f KBuilder) ->
  exists names, builder_items c = map GOk names
    /\ (NoDup names <-> NoDup ss /\ ~ In "new" ss /\ ~ In "build" ss).
Proof. exact builder_exact. Qed.
Print Assumptions C88_builder.

(** Whatever the flavour, the value of a lazy field is built by its own method. *)
Theorem C88_tied : forall c ss f s l, ok_input c -> calm c ss -> In f (c_input_fields c) -> stem f s ->
  is_lazy c f = true -> field_methods c f = GOk l -> lazy_target c f = GOk (TUser ("build_" ++ s)).
Proof. intros c ss f s l ok K. exact (lazy_tied c ss ok K f s l). Qed.
Print Assumptions C88_tied.

(** ** Cases *)
Definition get_as (b : bool) : option accessor := Some (mk_accessor (mk_helper false None None None None) b false false).
(** [#[fxstruct(sync, new, builder, rc)] struct Foo]: a lazy async field with many
    helpers, a lazy sync one, one called [r#type] with a getter by copy. *)
Definition busy : sctx :=
  mk_sctx "Foo" "pub"
    (put_s_mode_sync (Some true) (put_s_rc h_on (put_s_builder bld_on bare_sargs)))
    [put_f_mode_async (Some true) (put_f_lazy h_on (put_f_clearer h_on (put_f_accessor_mut h_on (bare_field "one" "u8"))));
     put_f_lazy h_on (put_f_setter set_on (put_f_reader h_on (bare_field "two" "u8")));
     put_f_accessor (get_as false) (put_f_setter set_on (bare_field "r#type" "u8"))].
Ltac quietly := split;
  [ intros p P (r & E); repeat destruct P as [<-|P]; try discriminate E; exact P
  | intros (r & E); repeat (destruct r as [|? r]; try discriminate E; try (injection E as ? E))
  | cbn; intuition discriminate
  | intros (a & r & E & C); injection E as <- <-; cbn in C; repeat destruct C as [C|C]; try discriminate C; exact C ].
Ltac plainly := intros n X; destruct X as (a & X & _); discriminate X.
Lemma busy_ok : ok_input busy.
Proof.
  split.
  - split.
    + known_word.
    + intros k h n G S. destruct k; try discriminate; injection G as <-; given.
    + intros h n G S. injection G as <-. given.
    + intros w n G S. discriminate.
  - intros f [<-|[<-|[<-|[]]]]; (split; [known_word| |]); try (intros n S; given);
      intros k h n G S; destruct k; try discriminate; injection G as <-; given.
  - split.
    + intros f I (w & d & v & W & _). exfalso. destruct I as [<-|[<-|[<-|[]]]]; discriminate.
    + intros w n G _ S. discriminate.
  - intros f d I D. exfalso. destruct I as [<-|[<-|[<-|[]]]]; discriminate.
Qed.
Lemma busy_calm : calm busy ["one"; "two"; "type"].
Proof.
  split.
  - constructor; [|constructor; [|constructor; [|constructor]]]; right; (split; [plainly|]); (split; [known_word|]);
      first [left; reflexivity|right; reflexivity].
  - intros f k [<-|[<-|[<-|[]]]]; split; intros h n G S; destruct k; try discriminate; injection G as <-; given.
  - intros ns [(_ & h & n & R & -> & G)|(R & _)]; [|discriminate R]. injection R as <-.
    assert (n = "myself") as -> by (destruct G as [G|(_ & ->)]; [given|reflexivity]).
    split; [repeat constructor; cbn; intuition discriminate|].
    intros s [<-|[<-|[<-|[<-|[<-|[]]]]]]; quietly.
  - exists "F"%char, "oo". split; [reflexivity|]. cbn. tauto.
  - intros w n G. discriminate.
Qed.
Example C88_case :
  ok_input busy /\ calm busy ["one"; "two"; "type"] /\ expand yes no busy = GOk []
  /\ map (item_ident busy) (items busy)
     = map GOk ["one"; "one_mut"; "clear_one"; "__fx_async_wrap_for_build_one"; "two"; "read_two"; "set_two"; "type";
                "set_type"; "myself"; "myself_downgrade"; "new"; "builder"]
  /\ map (lazy_target busy) (firstn 2 (c_input_fields busy)) = [GOk (TUser "build_one"); GOk (TUser "build_two")]
  /\ builder_items busy = map GOk ["new"; "one"; "two"; "type"; "build"].
Proof. split; [exact busy_ok|]. split; [exact busy_calm|]. repeat split; vm_compute; reflexivity. Qed.
(** [#[fxstruct(serde(default(Foo::new())))]] with a field that has a serde default and a
    getter by copy: the numbered functions and the check. *)
Example C88_serde_case :
  let c := ctx_of (put_s_serde (serde_default_code "Foo::new()") bare_sargs)
             [put_f_copy (Some true) (put_f_accessor (get_as false)
                (put_f_serde (serde_default_code "7") (bare_field "one" "u8")))] in
  map (item_ident c) (items c)
  = map GOk ["one"; "__Foo_one_default_1"; "new"; "__FooShadow_default_2"; "__fieldx_copy_validation"].
Proof. vm_compute. reflexivity. Qed.

(** ** Refuted *)
Definition fn_named (c : sctx) (n : string) : nat :=
  List.length (filter (named_by c n) (items c)).
(** Two async lazy fields built by one method; a plain or sync pair is fine. *)
Definition sharing (m : field -> field) : sctx :=
  ctx_of bare_sargs [m (put_f_lazy (h_named "make") fa); m (put_f_lazy (h_named "make") fb)].
Theorem C88_shared_builder_refuted :
  expand yes no (sharing (put_f_mode_async (Some true))) = GOk []
  /\ fn_named (sharing (put_f_mode_async (Some true))) "__fx_async_wrap_for_make" = 2
  /\ fn_named (sharing (put_f_mode_sync (Some true))) "__fx_async_wrap_for_make" = 0
  /\ map (lazy_target (sharing (put_f_mode_sync (Some true)))) [put_f_mode_sync (Some true) (put_f_lazy (h_named "make") fa)]
     = [GOk (TUser "make")].
Proof. repeat split; vm_compute; reflexivity. Qed.
Print Assumptions C88_shared_builder_refuted.
(** A getter of a field called [new]; the mutable getter of [set] and the setter of
    [r#mut]; a field called [build] with a builder. *)
Theorem C88_names_refuted :
  (let c := ctx_of (put_s_default (Some true) bare_sargs) [put_f_accessor (get_as false) (bare_field "new" "u8")] in
   expand yes no c = GOk [] /\ fn_named c "new" = 2)
  /\ (let c := ctx_of bare_sargs [put_f_accessor_mut h_on (bare_field "set" "u8"); put_f_setter set_on (bare_field "r#mut" "u8")] in
      expand yes no c = GOk [] /\ fn_named c "set_mut" = 2)
  /\ (let c := ctx_of (put_s_builder bld_on bare_sargs) [bare_field "build" "u8"] in
      expand yes no c = GOk [] /\ builder_items c = map GOk ["new"; "build"; "build"])
  /\ (let c := ctx_of bare_sargs [put_f_lazy h_on fa; put_f_accessor (get_as false) (bare_field "build_a" "u8")] in
      expand yes no c = GOk [] /\ lazy_target c (put_f_lazy h_on fa) = GOk (TOwn (IHelper (put_f_accessor (get_as false) (bare_field "build_a" "u8")) KAccessor))).
Proof. repeat split; vm_compute; reflexivity. Qed.
Print Assumptions C88_names_refuted.
