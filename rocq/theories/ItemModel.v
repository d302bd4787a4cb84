(** All functions that end up in the two impl blocks of one struct, in the order in which
    they are added (fieldx_derive/src/codegen.rs, codegen/codegen_trait.rs,
    codegen/serde.rs, codegen/sync/impl_async.rs, impl_sync.rs), and which method of the
    user a lazy field is tied to.  A field whose generation failed adds nothing here; the
    struct is then refused anyway (C74). *)
From Coq Require Import List Bool String.
From Verif Require Import ArgsModel CtxModel RustAst CommonGen StructGen CopyModel NameModel MacroModel.
Import ListNotations.
Open Scope string_scope.

Inductive item : Type :=
| IHelper (f : field) (k : hkind)            (* codegen_trait.rs:303-312 *)
| IWrapper (f : field)                       (* codegen_trait.rs:313 *)
| IFieldDefault (f : field) (n : nat)        (* serde.rs:213-219 *)
| IMyself                                    (* codegen.rs:265-271 *)
| IDowngrade                                 (* codegen.rs:272-278 *)
| INew                                       (* codegen.rs:229-249 *)
| IBuilder                                   (* codegen.rs:210-219 *)
| IShadowDefault (n : nat)                   (* serde.rs:514-522 *)
| ICopyCheck.                                (* codegen.rs:487-500 *)

Section Items.
Variable c : sctx.

(** codegen.rs:229-240 (struct_extras): the name of the constructor. *)
Definition new_name : string := if s_needs_new (c_args c) then "new" else "__fieldx_new".
(** The name under which each of them is declared (the lines above). *)
Definition item_ident (i : item) : gres string :=
  match i with
  | IHelper f k => helper_ident c f k
  | IWrapper f => lazy_wrapper_ident c f
  | IFieldDefault f n => default_fn_ident c f n
  | IMyself => do o <- myself_idents c; do p <- gunwrap o; GOk (fst p)
  | IDowngrade => do o <- myself_idents c; do p <- gunwrap o; GOk (snd p)
  | INew => GOk new_name
  | IBuilder => GOk "builder"
  | IShadowDefault n => shadow_default_fn_ident c n
  | ICopyCheck => GOk "__fieldx_copy_validation"
  end.

(** sync.rs:203-210 (field_lazy_builder_wrapper) with impl_async.rs:36-48 and
    impl_sync.rs:25-27 (lazy_wrapper_fn). *)
Definition wrapped (f : field) : bool :=
  is_sync c f && negb (f_is_skipped f) && is_lazy c f && is_async c f.
(** codegen_trait.rs:303-313 (field_methods). *)
Definition field_items (f : field) : list item :=
  match field_methods c f with
  | GOk l => map (fun m => IHelper f (m_kind m)) l ++ (if wrapped f then [IWrapper f] else [])
  | _ => []
  end%list.
(** serde.rs:443-464 and 77-88: the counter of ctx/codegen.rs:374-378 goes on. *)
Fixpoint serde_items (n : nat) (l : list field) : list item :=
  match l with
  | [] => []
  | f :: r =>
      if is_serde c f && own_default_fn f then IFieldDefault f n :: serde_items (S n) r else serde_items n r
  end.
(** serde.rs:473-524 (serde_shadow_default_fn). *)
Definition shadow_default_fn : bool :=
  match s_serde (c_args c) with
  | Some w => has_serde_default w && match se_default w with Some d => is_some (d_value d) | None => false end
  | None => false
  end.
(** codegen.rs:134-138, 171-224 (rewrite) and 467-520 (finalize). *)
Definition items : list item :=
  (flat_map field_items (all_fields c)
   ++ (if s_is_serde (c_args c) then serde_items 0 (all_fields c) else [])
   ++ (if s_is_ref_counted (c_args c) then [IMyself; IDowngrade] else [])
   ++ (if needs_default c then [INew] else [])
   ++ (if needs_builder_struct c then [IBuilder] else [])
   ++ (if s_is_serde (c_args c) && shadow_default_fn
       then [IShadowDefault (List.length (filter own_default_fn (shadow_input c)))] else [])
   ++ match copy_checked c with [] => [] | _ => [ICopyCheck] end)%list.

(** codegen.rs:407-420 (builder_impl): new(), the setters, build(). *)
Definition setter_fields : list field :=
  filter (fun f => is_some (field_builder (cfg_of c f))) (builder_input c).
Definition builder_items : list (gres string) :=
  ([GOk "new"] ++ map (fun f => helper_ident c f KBuilder) setter_fields ++ [GOk "build"])%list.

(** ** Which function a lazy field builds its value with *)
(** plain.rs:67-79 (self.name()), impl_sync.rs:29-34 (<Struct>::name) and impl_async.rs:50-55
    (<Struct>::wrapper): the name that stands in the emitted code. *)
Definition lazy_names (f : field) : gres string :=
  if is_sync c f && is_async c f then lazy_wrapper_ident c f else helper_ident c f KLazy.
(** impl_async.rs:36-48: what the named function is.  A function of the impl block is
    found by its name; only the wrappers pass the call on, to self.name(); everything
    else of that name is the user's. *)
Inductive target : Type :=
| TUser (n : string)                         (* a method of the user *)
| TOwn (i : item).                           (* one of the generated functions *)
Definition named_by (n : string) (i : item) : bool :=
  match item_ident i with GOk m => String.eqb m n | _ => false end.
Definition called (n : string) : target :=
  match find (named_by n) items with
  | Some (IWrapper g) => match helper_ident c g KLazy with GOk m => TUser m | _ => TOwn (IWrapper g) end
  | Some i => TOwn i
  | None => TUser n
  end.
Definition lazy_target (f : field) : gres target := do n <- lazy_names f; GOk (called n).
End Items.
