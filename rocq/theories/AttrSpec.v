(** What the documentation says about attributes: lib.rs:65, 94-125, 206-207, 401-407,
    567, 584 and README.md:449-455; for the builder's impl also the first lines of
    fieldx/tests/plain_builder.rs. *)
From Coq Require Import List Bool String Ascii.
From Verif Require Import ArgsModel CtxModel AttrModel.
Import ListNotations.
Open Scope string_scope.

(** The first list that was written, from the most to the least specific. *)
Fixpoint nearest (l : list (option (list string))) : list string :=
  match l with
  | [] => []
  | Some x :: _ => x
  | None :: t => nearest t
  end.

(** The [attributes_fn] sub-argument of the helper argument for a kind of method. *)
Definition fn_of (h : option helper) : option (list string) :=
  match h with Some h => h_attributes_fn h | None => None end.
Definition fn_field (f : field) (k : hkind) : option (list string) :=
  match k with
  | KAccessor => fn_of (option_map a_base (f_accessor f))
  | KAccessorMut => fn_of (f_accessor_mut f)
  | KBuilder => fn_of (option_map b_base (f_builder f))
  | KClearer => fn_of (f_clearer f)
  | KLazy => fn_of (f_lazy f)
  | KPredicate => fn_of (f_predicate f)
  | KReader => fn_of (f_reader f)
  | KSetter => fn_of (option_map st_base (f_setter f))
  | KWriter => fn_of (f_writer f)
  end.
Definition fn_struct (s : sargs) (k : hkind) : option (list string) :=
  match k with
  | KAccessor => fn_of (option_map a_base (s_accessor s))
  | KAccessorMut => fn_of (s_accessor_mut s)
  | KBuilder => fn_of (option_map b_base (s_builder s))
  | KClearer => fn_of (s_clearer s)
  | KLazy => fn_of (s_lazy s)
  | KPredicate => fn_of (s_predicate s)
  | KReader => fn_of (s_reader s)
  | KSetter => fn_of (option_map st_base (s_setter s))
  | KWriter => fn_of (s_writer s)
  end.

(** The list of attributes to forward: that of the field, else that of the struct. *)
Definition forwarded (c : sctx) (f : field) : list string :=
  nearest [match f_serde f with Some h => se_forward_attrs h | None => None end;
           match s_serde (c_args c) with Some h => se_forward_attrs h | None => None end].

(** The attribute [x] is called [p]: it starts with [p], and the name ends there. *)
Definition after_name (a : ascii) : bool :=
  match a with "("%char | "["%char | "{"%char | "="%char | " "%char => true | _ => false end.
Definition is_named (x p : string) : bool :=
  forallb (fun a => negb (after_name a)) (list_ascii_of_string p) && prefix p x
  && match get (length p) x with Some a => after_name a | None => true end.

(** What each item carries according to the documentation. *)
Definition documented (c : sctx) (p : place) : list string :=
  let s := c_args c in
  match p with
  | AtStructImpl => nearest [s_attributes_impl s]
  | AtField f => f_attrs f
  | AtMethod f k => nearest [fn_field f k; f_attributes_fn f; fn_struct s k]
  | AtBuilderStruct =>
      nearest [match s_builder s with Some b => b_attributes b | None => None end; s_attributes s]
  | AtBuilderImpl =>
      nearest [match s_builder s with Some b => b_attributes_impl b | None => None end;
               s_attributes_impl s]
  | AtBuilderField f =>
      nearest [match f_builder f with Some b => b_attributes b | None => None end]
  | AtBuilderSetter f =>
      nearest [fn_field f KBuilder; f_attributes_fn f; fn_struct s KBuilder]
  | AtShadowStruct =>
      nearest [match s_serde s with Some h => se_attributes h | None => None end; s_attributes s]
  | AtShadowField f =>
      nearest [match f_serde f with Some h => se_attributes h | None => None end]
      ++ filter (fun x => is_named x "serde" || existsb (is_named x) (forwarded c f)) (f_attrs f)
  end.
