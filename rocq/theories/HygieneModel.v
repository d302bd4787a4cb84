(** The names that stand in the generated code without a path in front of them
    (fieldx_derive/src/codegen.rs, codegen/plain.rs, codegen/sync.rs,
    codegen/codegen_trait.rs, codegen/serde.rs, codegen/sync/impl_async.rs), read off the
    emitted methods and values of PlainGen.v, SyncGen.v and StructGen.v.  quote! makes
    identifiers that are seen, and see, where the macro is used.  Left out: methods (found
    by the type they are called on), [self], attributes given by the user, the paths
    given for build errors and serde defaults. *)
From Coq Require Import List Bool String.
From Verif Require Import ArgsModel CtxModel RustAst CommonGen PlainGen SyncGen StructGen CopyModel NameModel ItemModel
  HygieneSpec.
Import ListNotations.
Open Scope string_scope.
Open Scope list_scope.

(** sync.rs:82-97, 327-331 and 482, plain.rs:123-129, codegen_trait.rs:510-524: the generics
    the code adds to methods. *)
Definition fx_reader : name := (Lifetimes, "'fx_reader_lifetime").
Definition fx_get_mut : name := (Lifetimes, "'fx_get_mut").
Definition fx_writer : name := (Lifetimes, "'fx_writer_lifetime").
Definition fx_into : name := (Types, "FXVALINTO").

Section Names.
Variable c : sctx.
Variable w : surroundings.

(** The struct and the types made from it (codegen.rs:424-465, serde.rs:280-336). *)
Definition type_name (r : gres string) : list name := match r with GOk n => [(Types, n)] | _ => [] end.
Definition struct_name : list name := [(Types, c_ident c)].
Definition builder_name : list name := if needs_builder_struct c then type_name (builder_ident c) else [].
Definition shadow_name : list name := if s_is_serde (c_args c) then type_name (shadow_ident_of c) else [].
Definition made : list name := struct_name ++ builder_name ++ shadow_name.

(** Bookkeeping, no code behind it: [l] said to mean [m], or repeated, under [b]. *)
Definition say (b : list name) (m : meaning) (l : list name) : list piece := map (fun n => Says b n m) l.
Definition repeat_ (b : list name) (l : list name) : list piece := map (Repeats b) l.

(** ** Expressions *)
(** [Ok] stands alone in plain.rs:165, ctx/field.rs:475; [Some] only where
    [bare] (plain.rs:268); the struct is named by sync.rs:136-157 (input_type_toks,
    builder_wrapper_type) and impl_sync.rs:29-34, impl_async.rs:50-55; the other paths
    start with [::]. *)
Definition path_pieces (bare : bool) (b : list name) (p : path) : list piece :=
  match p with
  | POk => [Says b (Values, "Ok") Std]
  | PSome => if bare then [Says b (Values, "Some") Std] else []
  | PProxyNew _ _ | PWrapBuilder _ _ => say b Generated struct_name
  | _ => []
  end.
(** A variable; [self] is no identifier (plain.rs, sync.rs). *)
Definition var_pieces (b : list name) (x : string) : list piece :=
  if String.eqb x "self" then [] else [Says b (Values, x) Bound].
(** A pattern: [_] binds nothing (plain.rs:254-255, sync.rs:248, 543). *)
Definition bind (x : string) : list piece := if String.eqb x "_" then [] else [Binds (Values, x)].
Definition under (x : string) (b : list name) : list name := if String.eqb x "_" then b else (Values, x) :: b.
(** The pieces of an emitted expression under the bindings [b]; [words]: the names in the
    default of the field (codegen_trait.rs:331-355). *)
Fixpoint expr_pieces (words : list name) (bare : bool) (b : list name) (e : expr) : list piece :=
  match e with
  | EVar x | EFld x => var_pieces b x
  | EM0 e _ | ERef e | EMut e | EDeref e | ETry e | EAwait e | EFn0 e => expr_pieces words bare b e
  | EM1 e _ a => expr_pieces words bare b e ++ expr_pieces words bare b a
  | EM2 e _ x y => expr_pieces words bare b e ++ expr_pieces words bare b x ++ expr_pieces words bare b y
  | EC0 p => path_pieces bare b p
  | EC1 p x => path_pieces bare b p ++ expr_pieces words bare b x
  | EC2 p x y => path_pieces bare b p ++ expr_pieces words bare b x ++ expr_pieces words bare b y
  | ELet _ x e k => expr_pieces words bare b e ++ bind x ++ expr_pieces words bare (under x b) k
  | ESeq e k => expr_pieces words bare b e ++ expr_pieces words bare b k
  | EFn1 x e => bind x ++ expr_pieces words bare (under x b) e
  | EIf t x y => expr_pieces words bare b t ++ expr_pieces words bare b x ++ expr_pieces words bare b y
  | EIfSome x e y z =>
      expr_pieces words bare b e ++ bind x ++ expr_pieces words bare (under x b) y ++ expr_pieces words bare b z
  | EAssign x e k => var_pieces b x ++ expr_pieces words bare b e ++ expr_pieces words bare b k
  | EUser _ _ => repeat_ b words
  end.
(** An emitted value, nothing after an error (ctx/codegen.rs:119-143). *)
Definition value_pieces (words : list name) (b : list name) (r : gres expr) : list piece :=
  match r with GOk e => expr_pieces words false b e | _ => [] end.

(** ** Types *)
(** The type of a field [tw] as it stands in the emitted types (plain.rs:40-61,
    sync.rs:136-157, 179-197); [bool] in plain.rs:342, 356, sync.rs:620-640. *)
Fixpoint type_pieces (tw : list name) (b : list name) (t : ty) : list piece :=
  match t with
  | TT => repeat_ b tw
  | TIntoT => [Says b fx_into Bound]
  | TBool => [Says b (Types, "bool") Std]
  | TUnit | TSelf | TRc | TAny => []
  | TRes t => type_pieces tw b t ++ repeat_ b (w_error w)
  | TWrap _ fl | TProxy _ fl | TGuard _ fl =>
      say b Generated struct_name ++ repeat_ b tw ++ (if fl then repeat_ b (w_error w) else [])
  | TOpt t | TRef t | TMut t | TOnce t | TCell t | TCellR t | TCellW t | TLock _ t | TLockR _ t | TLockW _ t
  | TMapR t | TMapW _ t | TTry t | TFut t | TFn t => type_pieces tw b t
  end.

(** ** Methods *)
(** The lifetime declared by a method: sync.rs:82-97 (reader), 327-331 (get_mut), 482
    (writer), plain.rs:123-129 and 184 (inner_mut). *)
Fixpoint guard_lifetime (lzy : bool) (t : ty) : list name :=
  match t with
  | TRes t => guard_lifetime lzy t
  | TMapR _ => [fx_reader]
  | TLockR _ (TOpt _) => [fx_reader]
  | TLockR _ _ => if lzy then [fx_reader] else []
  | TMapW _ _ => [fx_get_mut]
  | TGuard _ _ => [fx_writer]
  | _ => []
  end.
Definition lifetime_of (syn : bool) (g : fcfg) (m : mdecl) : list name :=
  if syn then guard_lifetime (g_lazy g) (m_ret m)
  else match m_kind m with
       | KAccessor | KAccessorMut => if g_inner_mut g && negb (g_lazy g) then [fx_reader] else []
       | _ => []
       end.
(** codegen_trait.rs:510-524 (into_toks): the bound repeats the type of the field. *)
Definition generics_of (syn : bool) (g : fcfg) (m : mdecl) : list name :=
  lifetime_of syn g m ++ match m_arg m with Some TIntoT => [fx_into] | _ => [] end.
(** codegen_trait.rs:510-524: the argument and its bound. *)
Definition arg_pieces (tw : list name) (b : list name) (m : mdecl) : list piece :=
  match m_arg m with
  | Some TIntoT => repeat_ b tw ++ type_pieces tw b TIntoT
  | Some t => type_pieces tw b t
  | None => []
  end.
(** plain.rs:81-365, sync.rs:63-111, 212-647: one method. *)
Definition method_pieces (syn : bool) (g : fcfg) (bare : bool) (m : mdecl) : list piece :=
  let gs := generics_of syn g m in
  let tw := w_type w (g_ident g) in
  let args := match m_arg m with Some _ => ["value"] | None => [] end in
  map Binds gs ++ arg_pieces tw gs m ++ type_pieces tw gs (m_ret m)
  ++ flat_map bind args
  ++ expr_pieces (w_default w (g_ident g)) bare (map (pair Values) args ++ gs) (m_body m).

(** impl_async.rs:36-48 (lazy_wrapper_fn). *)
Definition wrapper_pieces (g : fcfg) : list piece :=
  Says [] (Types, "Send") Std :: repeat_ [] (w_type w (g_ident g))
  ++ (if g_fallible g then repeat_ [] (w_error w) else []).

(** codegen_trait.rs:303-315: the methods of one field. *)
Definition field_pieces (f : field) : list piece :=
  match field_methods c f with
  | GOk ms =>
      flat_map (fun m => method_pieces (is_sync c f) (cfg_of c f)
                           (match m_kind m with KSetter => true | _ => false end) m) ms
      ++ (if wrapped c f then wrapper_pieces (cfg_of c f) else [])
  | _ => []
  end.
(** codegen_trait.rs:287-301 (field_decl). *)
Definition decl_pieces (f : field) : list piece :=
  match field_type c f with GOk t => type_pieces (w_type w (f_ident f)) [] t | _ => [] end.

(** ** The struct *)
Definition rc : bool := s_is_ref_counted (c_args c).
(** codegen_trait.rs:232-276 (maybe_ref_counted_create): the closure around a literal. *)
Definition me : list name := if rc then [(Values, "me")] else [].
Definition me_pieces : list piece := if rc then [Binds (Values, "me"); Says me (Values, "me") Bound] else [].
(** codegen.rs:515-521 (finalize). *)
Definition impl_pieces : list piece := Says [] (Types, "FXStruct") Imported :: say [] Generated struct_name.
(** codegen.rs:210-219 (builder()), 229-249 (new()). *)
Definition extra_pieces : list piece :=
  (if needs_builder_struct c then say [] Generated builder_name else [])
  ++ (if needs_default c then me_pieces else []).
(** codegen.rs:282-310 (default_impl). *)
Definition default_pieces : list piece :=
  if has_default_impl c then
    Says [] (Types, "Default") Std :: say [] Generated struct_name
    ++ flat_map (fun f => value_pieces (w_default w (f_ident f)) [] (field_default c f)) (all_fields c)
  else [].
(** codegen.rs:489-503: the Copy check. *)
Definition copy_pieces : list piece :=
  match filter (fun f => needs_accessor c f && is_copy c f) (all_fields c) with
  | [] => []
  | l => Says [] (Types, "Copy") Std :: flat_map (fun f => repeat_ [] (w_type w (f_ident f))) l
  end.
(** codegen.rs:424-465 (builder_struct), 345-352 (new), 402-420 (build);
    codegen_trait.rs:357-394 (setters and fields). *)
Definition builder_pieces : list piece :=
  if needs_builder_struct c then
    say [] Generated builder_name
    ++ (if rc then say [] Generated struct_name else [])
    ++ flat_map (fun f => repeat_ [] (w_type w (f_ident f))) (builder_input c)
    ++ flat_map (fun _ => [Says [] (Values, "None") Std]) (builder_input c)
    ++ flat_map (fun f => match field_builder (cfg_of c f) with
                          | Some m => method_pieces (is_sync c f) (cfg_of c f) false m
                          | None => [] end) (builder_input c)
    ++ [Says [] (Values, "Ok") Std] ++ say [] Generated struct_name ++ me_pieces
    ++ flat_map (fun f => value_pieces (w_default w (f_ident f)) me (field_build_value c f)) (builder_input c)
  else [].

(** ** Serde *)
(** codegen/serde.rs:233-251 (derive_traits), util.rs (derive_toks): found where the struct
    is. *)
Definition derive_pieces : list piece :=
  (if s_needs_serialize (c_args c) then [Says [] (Macros, "Serialize") Users] else [])
  ++ (if s_needs_deserialize (c_args c) then [Says [] (Macros, "Deserialize") Users] else []).
(** codegen/serde.rs:159-189 (defaults of the shadow struct), 280-336. *)
Definition shadow_pieces : list piece :=
  say [] Generated shadow_name
  ++ flat_map (fun f => repeat_ [] (w_type w (f_ident f))) (shadow_input c)
  ++ (if needs_default c
      then flat_map (fun f => expr_pieces (w_default w (f_ident f)) false [] (shadow_default (cfg_of c f))) (shadow_input c)
      else []).
(** codegen/serde.rs:339-389 (from the shadow struct). *)
Definition from_pieces : list piece :=
  if from_shadow_emitted c then
    say [] Generated shadow_name ++ say [] Generated struct_name ++ bind "__shadow"
    ++ flat_map (fun f => value_pieces (w_default w (f_ident f)) (under "__shadow" []) (field_from_shadow c f))
         (filter (fun f => is_serde c f && needs_deserialize c f) (all_fields c))
  else [].
(** codegen/serde.rs:391-441 (into the shadow struct). *)
Definition into_pieces : list piece :=
  if into_shadow_emitted c then
    say [] Generated shadow_name ++ say [] Generated struct_name ++ bind "__me"
    ++ flat_map (fun f => expr_pieces [] false (under "__me" []) (field_lazy_init c f "__me")) (filter (is_lazy c) (serialized c))
    ++ flat_map (fun f => expr_pieces [] false (under "__me" []) (field_from_struct c f)) (serialized c)
  else [].
(** codegen.rs:171-185, 205-224: what serde adds. *)
Definition serde_pieces : list piece :=
  if s_is_serde (c_args c) then derive_pieces ++ shadow_pieces ++ from_pieces ++ into_pieces else [].

(** codegen.rs:467-529 (finalize). *)
Definition pieces : list piece :=
  impl_pieces ++ flat_map decl_pieces (all_fields c) ++ flat_map field_pieces (all_fields c)
  ++ extra_pieces ++ default_pieces ++ copy_pieces ++ builder_pieces ++ serde_pieces.
End Names.
