(** The whole of FXRewriter::rewrite (fieldx_derive/src/codegen.rs:134-138): what is
    generated in which order, which errors are recorded (ctx/codegen.rs:113-143), where
    the macro itself can panic, and what is left out after an error.  The code generated
    for one field is that of PlainGen.v and SyncGen.v; here the names are made as well
    (NameModel.v), at the place where the code makes them.

    Two answers of syn about a serde default given to the struct are parameters:
    whether a string is the path of an expression, and whether an item has the form
    [name = value]. *)
From Coq Require Import List Bool String.
From Verif Require Import ArgsModel CtxModel RustAst CommonGen PlainGen SyncGen StructGen NameModel.
Import ListNotations.
Open Scope string_scope.

(** A value that is not needed further, as the [?] of plain.rs:87. *)
Definition gdone {A} (r : gres A) : gres unit := do _x <- r; GOk tt.
(** Something done under a condition, as in sync.rs:203-210. *)
Definition gwhen (b : bool) (r : gres unit) : gres unit := if b then r else GOk tt.
(** Option::unwrap, as in sync.rs:228. *)
Definition gunwrap {A} (o : option A) : gres A :=
  match o with Some a => GOk a | None => GPanic "called `Option::unwrap()` on a `None` value" end.

(** ** Spans that are unwrapped *)
(** fieldx_aux/src/accessor_helper.rs:57-70 (mode_span): whether there is one. *)
Definition mode_span (a : option accessor) : option unit :=
  match a with
  | Some a => if a_copy a then Some tt else if a_clone a then Some tt else if a_as_ref a then Some tt else None
  | None => None
  end.
(** orig_span of an argument written by the user, fieldx_aux/src/nesting_attr.rs:117-121:
    whether there is one. *)
Definition orig_span {A} (o : option A) : option unit := option_map (fun _ => tt) o.
(** fields.rs:374-388, util/args.rs:276-290, ctx/field.rs:416-420 (accessor_mode_span). *)
Definition accessor_mode_span (c : sctx) (f : field) : option unit :=
  let a := c_args c in
  or_else (or_else (mode_span (f_accessor f)) (or_else (orig_span (f_copy f)) (orig_span (f_clone f))))
          (or_else (mode_span (s_accessor a)) (or_else (orig_span (s_copy a)) (orig_span (s_clone a)))).

Section Macro.
(** syn::parse_str::<ExprPath> succeeds (codegen/serde.rs:493), the item is a
    Meta::NameValue (500). *)
Variable expr_path name_value : string -> bool.
Variable c : sctx.

Section Field.
Variable f : field.
Let g := cfg_of c f.

(** The name of a helper: codegen_trait.rs:102-184. *)
Definition named (k : hkind) : gres unit := gdone (helper_ident c f k).
(** codegen_trait.rs:530-545 (maybe_ref_counted_self): myself_names().unwrap(). *)
Definition self_ref : gres unit :=
  gwhen (s_is_ref_counted (c_args c)) (do o <- myself_idents c; gdone (gunwrap o)).

(** *** plain.rs *)
(** plain.rs:67-79 (field_lazy_initializer): the self given to the builder is made even
    when the caller names a variable (76). *)
Definition plain_lazy_initializer : gres unit := do _n <- named KLazy; self_ref.
(** plain.rs:81-146 (field_accessor). *)
Definition plain_get : gres (list mdecl) :=
  if g_get g then
    do _n <- named KAccessor;
    do _l <- gwhen (g_lazy g) plain_lazy_initializer;
    plain_accessor g
  else GOk [].
(** plain.rs:148-200 (field_accessor_mut). *)
Definition plain_get_mut : gres (list mdecl) :=
  if g_get_mut g then
    do _n <- named KAccessorMut;
    do _l <- gwhen (g_lazy g) plain_lazy_initializer;
    plain_accessor_mut g
  else GOk [].
(** plain.rs:241-300, 302-327 and 329-365: name first; codegen_trait.rs:303-321. *)
Definition plain_field_methods : gres (list mdecl) :=
  if g_skip g then GOk [] else
  do a <- plain_get;
  do am <- plain_get_mut;
  do s <- (if g_set g then do _n <- named KSetter; plain_setter g else GOk []);
  do cl <- (if g_clearer g then do _n <- named KClearer; plain_clearer g else GOk []);
  do p <- (if g_predicate g && (g_lazy g || g_optional g)
           then do _n <- named KPredicate; plain_predicate g else GOk []);
  GOk (a ++ am ++ s ++ cl ++ p)%list.

(** *** sync.rs *)
(** impl_sync.rs:29-34, impl_async.rs:50-55 (lazy_builder). *)
Definition lazy_builder : gres unit :=
  if g_async g then gdone (lazy_wrapper_ident c f) else named KLazy.
(** sync.rs:649-690 (field_value_wrap): the type, then the builder. *)
Definition sync_wrap (r : repr) : gres expr :=
  if g_lazy g then do _t <- sync_type g; do _b <- lazy_builder; sync_value_wrap g r
  else sync_value_wrap g r.
(** sync.rs:63-111 (field_reader_method). *)
Definition sync_read (k : hkind) : gres (list mdecl) :=
  do _n <- named k;
  do _s <- gwhen (g_lazy g) self_ref;
  reader_method g k.
(** sync.rs:212-309 (field_accessor). *)
Definition sync_get : gres (list mdecl) :=
  if g_get g then
    do _n <- named KAccessor;
    if g_clone g || g_copy g then
      do _u <- gunwrap (accessor_mode_span c f);
      do _s <- gwhen (g_lazy g) self_ref;
      sync_accessor g
    else if g_lazy g || g_lock g then sync_read KAccessor
    else sync_accessor g
  else GOk [].
(** sync.rs:311-370 (field_accessor_mut). *)
Definition sync_get_mut : gres (list mdecl) :=
  if g_get_mut g then
    do _n <- named KAccessorMut;
    do _s <- gwhen (g_lazy g) self_ref;
    sync_accessor_mut g
  else GOk [].
(** sync.rs:203-210 with impl_async.rs:36-48 (lazy_wrapper_fn). *)
Definition sync_wrapper_fn : gres unit :=
  gwhen (g_lazy g && g_async g)
    (do _w <- lazy_wrapper_ident c f; do _n <- named KLazy; wrapper_type_ok g).
(** sync.rs:456-647, codegen_trait.rs:303-321. *)
Definition sync_field_methods : gres (list mdecl) :=
  if g_skip g then GOk [] else
  do a <- sync_get;
  do am <- sync_get_mut;
  do r <- (if g_reader g then sync_read KReader else GOk []);
  do w <- (if g_writer g then do _n <- named KWriter; sync_writer g else GOk []);
  do s <- (if g_set g then do _n <- named KSetter; sync_setter g else GOk []);
  do cl <- (if g_clearer g then do _n <- named KClearer; sync_clearer g else GOk []);
  do p <- (if g_predicate g then do _n <- named KPredicate; sync_predicate g else GOk []);
  do _wr <- sync_wrapper_fn;
  GOk (a ++ am ++ r ++ w ++ s ++ cl ++ p)%list.
(** sync.rs:372-425 (field_builder_setter): the name of the builder is made for every
    field (379), then the default is expected (381). *)
Definition sync_build : gres expr :=
  do _t <- sync_type g;
  do _b <- lazy_builder;
  sync_builder_value g.

(** *** codegen.rs *)
(** codegen_trait.rs:324-329 (field_default). *)
Definition field_default_step : gres expr :=
  if is_sync c f then sync_wrap (field_default_value g false) else plain_default_wrap g.
(** codegen_trait.rs:303-322 (field_methods), with the setter of the builder (317,
    357-378). *)
Definition field_methods_step : gres (list mdecl) :=
  do l <- (if is_sync c f then sync_field_methods else plain_field_methods);
  do _b <- gwhen (negb (g_skip g) && needs_builder_struct c && (g_forced g || g_builder g)) (named KBuilder);
  GOk l.
(** codegen.rs:187-203 (prepare_field): the parts in order; the declaration comes last. *)
Definition prepare_field : gres unit :=
  do _d <- field_default_step;
  do _m <- field_methods_step;
  gdone (field_type c f).
(** codegen.rs:347-378: the value given to the field by build(). *)
Definition build_step : gres expr :=
  if is_sync c f then sync_build else plain_builder_value g.

(** *** serde.rs *)
(** serde_helper.rs:99-110 (has_default, default_value). *)
Definition has_serde_default (w : serde) : bool :=
  match se_default w with Some d => defarg_is_true d | None => false end.
(** serde.rs:55-115 (serde_field_attribute) with 190-220 (serde_field_default_fn); [n]
    identifiers have been made before. *)
Definition serde_attribute_step (n : nat) : gres unit :=
  gwhen (s_is_serde (c_args c))
    (do _d <- match f_serde f with
              | Some w =>
                  gwhen (has_serde_default w)
                    (do d <- gunwrap (se_default w);
                     gwhen (is_some (d_value d) && negb (d_is_str d)) (gdone (default_fn_ident c f n)))
              | None => GOk tt
              end;
     match f_base_name_of f with Some b => gdone (ident_new b) | None => GOk tt end).
(** serde.rs:339-389: one field of From<Shadow>, sync.rs:438-442, plain.rs:444-460. *)
Definition from_shadow_step : gres expr :=
  if is_sync c f then sync_wrap (RExact (EFld "__shadow")) else plain_from_shadow g.
(** serde.rs:391-441: one field of From<Struct>, with its initialiser (plain.rs:67-79). *)
Definition into_shadow_step : gres unit :=
  gwhen (g_lazy g && negb (is_sync c f)) plain_lazy_initializer.
End Field.

(** ** Recorded errors *)
(** An error and the field it is about, [""] for the struct. *)
Definition err : Type := string * string.
(** A call whose error is recorded (ok_or_record, exec_or_record, ok_or_empty,
    ctx/codegen.rs:113-143). *)
Definition step : Type := string * gres unit.
(** All steps in order; a panic stops the macro, errors are collected (push_error,
    ctx/codegen.rs:113-117). *)
Fixpoint run (l : list step) : gres (list err) :=
  match l with
  | [] => GOk []
  | (n, GOk _) :: r => run r
  | (n, GErr m) :: r => do es <- run r; GOk ((n, m) :: es)
  | (n, GPanic m) :: r => GPanic m
  end.
Definition succeeds {A} (r : gres A) : bool := match r with GOk _ => true | _ => false end.

(** codegen.rs:140-170 (prepare_ref_counted): myself_field().unwrap().  The hidden field
    itself always parses. *)
Definition hidden_step : gres unit :=
  gwhen (s_is_ref_counted (c_args c)) (do o <- myself_field_ident c; gdone (gunwrap o)).
(** codegen.rs:253-280 (myself_methods): rc().unwrap(), myself_names().unwrap(). *)
Definition myself_step : gres unit :=
  gwhen (s_is_ref_counted (c_args c))
    (do _r <- gunwrap (s_rc (c_args c)); do o <- myself_idents c; do _n <- gunwrap o; gdone (myself_field_ident c)).
(** codegen.rs:205-224 (rewrite_struct): builder(). *)
Definition builder_fn_step : gres unit := gwhen (needs_builder_struct c) (gdone (builder_ident c)).
(** serde.rs:253-285 (serde_struct_attribute), 235-251 (serde_derive_traits). *)
Definition serde_struct_step : gres unit :=
  gwhen (s_is_serde (c_args c)) (do _w <- gunwrap (s_serde (c_args c)); gdone (shadow_ident_of c)).
(** How many fields of a list have a default function of their own (serde.rs:77-88). *)
Definition own_default_fn (f : field) : bool :=
  match f_serde f with
  | Some w => has_serde_default w &&
              match se_default w with Some d => is_some (d_value d) && negb (d_is_str d) | None => false end
  | None => false
  end.
(** serde.rs:443-464 (serde_prepare_struct): the attributes of the shadow fields. *)
Fixpoint serde_prepare (n : nat) (l : list field) : list step :=
  match l with
  | [] => []
  | f :: r =>
      if is_serde c f
      then (f_ident f, serde_attribute_step f n) :: serde_prepare (if own_default_fn f then S n else n) r
      else serde_prepare n r
  end.
(** serde.rs:473-534 (serde_shadow_default_fn); [n] identifiers have been made before. *)
Definition shadow_default_step (n : nat) : gres unit :=
  match s_serde (c_args c) with
  | Some w =>
      gwhen (has_serde_default w)
        (do d <- gunwrap (se_default w);
         match d_value d with
         | Some v =>
             do _e <- (if d_is_str d
                       then if expr_path v then GOk tt else GErr "Invalid default string"
                       else if name_value v then GErr "Unexpected kind of argument" else GOk tt);
             gdone (shadow_default_fn_ident c n)
         | None => GOk tt
         end)
  | None => GOk tt
  end.
(** serde.rs:288-336 (serde_shadow_struct). *)
Definition shadow_struct_step : gres unit :=
  gwhen (s_is_serde (c_args c))
    (do _w <- gunwrap (s_serde (c_args c));
     do _s <- shadow_ident_of c;
     shadow_default_step (List.length (filter own_default_fn (shadow_input c)))).
(** serde.rs:339-389 (serde_struct_from_shadow). *)
Definition from_shadow_steps : list step :=
  if from_shadow_emitted c then
    ("", gdone (shadow_ident_of c))
    :: map (fun f => (f_ident f, gdone (from_shadow_step f)))
         (filter (fun f => is_serde c f && needs_deserialize c f) (all_fields c))
  else [].
(** serde.rs:391-441 (serde_struct_into_shadow). *)
Definition into_shadow_steps : list step :=
  if into_shadow_emitted c then
    ("", gdone (shadow_ident_of c))
    :: map (fun f => (f_ident f, into_shadow_step f)) (serialized c)
  else [].
(** codegen_trait.rs:314-319: a field reaches the builder when its methods are made. *)
Definition reaches_builder (f : field) : bool :=
  negb (f_is_skipped f) && succeeds (field_default_step f) && succeeds (field_methods_step f).
(** codegen.rs:424-465 (builder_struct), 327-422 (builder_impl): myself_field is asked
    for even when rc is off (343-345). *)
Definition builder_steps : list step :=
  if needs_builder_struct c then
    ("", gdone (builder_ident c))
    :: ("", gdone (myself_field_ident c))
    :: map (fun f => (f_ident f, gdone (build_step f))) (filter reaches_builder (all_fields c))
  else [].

(** codegen.rs:134-138 (rewrite) with 171-185 (prepare_struct), 205-224 (rewrite_struct)
    and 467-528 (finalize). *)
Definition steps : list step :=
  ([("", hidden_step)]
   ++ map (fun f => (f_ident f, prepare_field f)) (all_fields c)
   ++ serde_prepare 0 (all_fields c)
   ++ [("", serde_struct_step); ("", myself_step); ("", builder_fn_step); ("", shadow_struct_step)]
   ++ from_shadow_steps
   ++ into_shadow_steps
   ++ builder_steps)%list.
(** The macro as a whole: the errors reported with the code (ctx/codegen.rs:235-248). *)
Definition expand : gres (list err) := run steps.

(** ** What the code contains *)
(** codegen.rs:507-511 with codegen_trait.rs:287-301: the declared fields. *)
Definition emitted_fields : list string :=
  map f_ident (filter (fun f => succeeds (prepare_field f)) (all_fields c)).
(** codegen.rs:282-302 with codegen_trait.rs:324-329: the fields given by Default. *)
Definition emitted_defaults : list string :=
  map f_ident (filter (fun f => succeeds (field_default_step f)) (all_fields c)).
(** codegen_trait.rs:314-319, codegen.rs:424-465: the fields of the builder. *)
Definition emitted_builder_fields : list string := map f_ident (filter reaches_builder (all_fields c)).
(** codegen.rs:355-378: the fields given in build(). *)
Definition emitted_build : list string :=
  map f_ident (filter (fun f => reaches_builder f && succeeds (build_step f)) (all_fields c)).
(** serde.rs:352-374 and 399-428: the fields given in the two conversions. *)
Definition emitted_from_shadow : list string :=
  map f_ident (filter (fun f => is_serde c f && needs_deserialize c f && succeeds (from_shadow_step f)) (all_fields c)).
Definition emitted_into_shadow : list string :=
  map f_ident (filter (fun f => succeeds (into_shadow_step f)) (serialized c)).
End Macro.
