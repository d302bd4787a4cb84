(** Which names the generated code uses, binds and puts over the words of the user, told
    from the arguments in force for each field (CtxModel.v) and not from emitted code. *)
From Coq Require Import List Bool String.
From Verif Require Import ArgsModel CtxModel RustAst StructGen CopyModel ItemModel HygieneSpec HygieneModel.
Import ListNotations.
Open Scope string_scope.

Section When.
Variable c : sctx.

(** The field has methods: it is there and not marked [skip]. *)
Definition has_methods (f : field) : Prop := In f (all_fields c) /\ f_is_skipped f = false.

(** [asks n m]: the generated code counts on [n] to mean [m]. *)
Inductive asks : name -> meaning -> Prop :=
| asks_trait : asks (Types, "FXStruct") Imported
| asks_made n : In n (made c) -> asks n Generated
| asks_default : needs_default c = true -> all_fields c <> [] -> asks (Types, "Default") Std
| asks_bool f : has_methods f -> needs_predicate c f = true ->
    is_sync c f || is_lazy c f || is_optional c f = true -> asks (Types, "bool") Std
| asks_send f : has_methods f -> is_sync c f = true -> is_async c f = true -> is_lazy c f = true ->
    asks (Types, "Send") Std
| asks_copy f : In f (all_fields c) -> needs_accessor c f = true -> is_copy c f = true -> asks (Types, "Copy") Std
| asks_ok : needs_builder_struct c = true -> asks (Values, "Ok") Std
| asks_ok_sync f : has_methods f -> is_sync c f = true -> is_lazy c f = true -> is_fallible c f = true ->
    needs_accessor c f = true -> is_clone c f || is_copy c f = true -> asks (Values, "Ok") Std
| asks_ok_plain f : has_methods f -> is_sync c f = false -> is_lazy c f = true -> is_fallible c f = true ->
    needs_accessor c f || needs_accessor_mut c f = true -> asks (Values, "Ok") Std
| asks_none f : needs_builder_struct c = true -> has_methods f -> asks (Values, "None") Std
| asks_some f : has_methods f -> is_sync c f = false -> is_lazy c f = false -> is_inner_mut c f = true ->
    is_optional c f = true -> needs_setter c f = true -> asks (Values, "Some") Std
| asks_serialize : s_is_serde (c_args c) = true -> s_needs_serialize (c_args c) = true ->
    asks (Macros, "Serialize") Users
| asks_deserialize : s_is_serde (c_args c) = true -> s_needs_deserialize (c_args c) = true ->
    asks (Macros, "Deserialize") Users.

(** Setters that take anything that converts. *)
Inductive converts (f : field) : Prop :=
| converts_set : has_methods f -> needs_setter c f = true -> is_setter_into c f = true -> converts f
| converts_build : needs_builder_struct c = true -> has_methods f ->
    forced_builder f || needs_builder c f = true -> is_builder_into c f = true -> converts f.

(** [opens n]: some method declares the lifetime or type parameter [n]. *)
Inductive opens : name -> Prop :=
| opens_reader f : has_methods f -> is_sync c f = true -> needs_reader c f = true ->
    is_lazy c f || is_optional c f = true -> opens fx_reader
| opens_getter f : has_methods f -> is_sync c f = true -> needs_accessor c f = true ->
    is_clone c f || is_copy c f = false ->
    is_lazy c f || needs_lock c f && is_optional c f = true -> opens fx_reader
| opens_inner f : has_methods f -> is_sync c f = false -> is_lazy c f = false -> is_inner_mut c f = true ->
    needs_accessor c f || needs_accessor_mut c f = true -> opens fx_reader
| opens_get_mut f : has_methods f -> is_sync c f = true -> is_lazy c f = true -> needs_accessor_mut c f = true ->
    opens fx_get_mut
| opens_writer f : has_methods f -> is_sync c f = true -> is_lazy c f = true -> needs_writer c f = true ->
    opens fx_writer
| opens_into f : converts f -> opens fx_into.

(** Variables of the generated code. *)
Definition locals : list name :=
  map (pair Values) ["value"; "old"; "rlock"; "wlock"; "me"; "v"; "field_manual_value"; "__shadow"; "__me"].

(** [covers w n]: the word [n] of the user stands where the generated code binds it. *)
Inductive covers (w : surroundings) : name -> Prop :=
| covers_type f : converts f -> In fx_into (w_type w (f_ident f)) -> covers w fx_into
| covers_build f : s_is_ref_counted (c_args c) = true -> needs_builder_struct c = true -> has_methods f ->
    default_value f <> None -> In (Values, "me") (w_default w (f_ident f)) -> covers w (Values, "me")
| covers_document f : s_is_serde (c_args c) = true -> s_needs_deserialize (c_args c) = true ->
    In f (all_fields c) -> is_serde c f = true -> needs_deserialize c f = true -> is_sync c f = false ->
    is_lazy c f || is_optional c f = true -> default_value f <> None ->
    In (Values, "__shadow") (w_default w (f_ident f)) -> covers w (Values, "__shadow").

(** The user's own code is in order: lifetimes stand for parameters of the struct. *)
Definition known_lifetimes (w : surroundings) : Prop := forall n, fst n = Lifetimes ->
  (exists f, In n (w_type w f)) \/ In n (w_error w) -> In n (w_params w) \/ n = (Lifetimes, "'static").
(** Constants are not called like our variables. *)
Definition free_locals (w : surroundings) : Prop := forall n, In n locals -> ~ In n (w_params w) /\ ~ In n (w_constants w).
End When.

(** ** A fixed list *)
(** Names to be left alone, whatever the arguments are. *)
Definition reserved : list name :=
  [(Types, "FXStruct"); (Types, "Default"); (Types, "Send"); (Types, "Copy"); (Types, "bool");
   (Values, "Ok"); (Values, "Some"); (Values, "None")].
Definition reserved_inside : list name := ([fx_reader; fx_get_mut; fx_writer; fx_into] ++ locals)%list.
Record leaves_alone (c : sctx) (w : surroundings) : Prop := {
  la_outside n : In n reserved -> ~ In n (w_params w) /\ ~ In n (w_items w) /\ ~ In n (made c) /\ ~ In n (w_globs w);
  la_made n : In n (made c) -> ~ In n (w_params w) /\ ~ In n (w_items w);
  la_params n : In n reserved_inside -> ~ In n (w_params w) /\ ~ In n (w_constants w);
  la_words n : In n reserved_inside ->
    (forall f, ~ In n (w_type w f) /\ ~ In n (w_default w f)) /\ ~ In n (w_error w);
  la_serde n : s_is_serde (c_args c) = true ->
    n = (Macros, "Serialize") \/ n = (Macros, "Deserialize") -> In n (w_items w) /\ ~ In n (w_params w)
}.
