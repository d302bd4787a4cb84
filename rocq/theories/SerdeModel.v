(** Writing and reading a struct with serde: the shadow struct and the conversions
    emitted by fieldx_derive/src/codegen/serde.rs, run with RustSem.v, and what serde's
    derive does with the shadow struct and the attributes put on it.

    An object or a shadow is the list of the storages of its fields in declaration
    order.  Simplifications: a document gives for a key a value or null, a value of the
    declared type is never written as null (true unless the type is itself an option),
    there are no unknown or repeated keys; serde's [into] clones the struct first, and
    the clone holds what the struct holds (Clone is the user's, FXProxySync clones
    content, sync/fxproxy.rs:243-257; FXProxyAsync does it with blocking_read,
    async/fxproxy.rs:251-263, hence outside of an async task). *)
From Coq Require Import List Bool String Arith.
From Verif Require Import ProxyTypes ArgsModel CtxModel RustAst CommonGen PlainGen SyncGen StructGen
  CodegenSpec CodegenValues RustTyping RustSem FieldRun SerdeSpec.
Import ListNotations.
Open Scope string_scope.

(** serde.rs:103-107 (serde_field_attribute): [rename]; serde's own rule otherwise. *)
Definition doc_key (f : field) : string :=
  match f_base_name_of f with Some n => n | None => f_ident f end.
(** fieldx_aux/src/serde_helper.rs:103-105 (has_default), with the argument. *)
Definition serde_default_arg (s : option serde) : option defarg :=
  match s with
  | Some w => match se_default w with
              | Some d => if defarg_is_true d then Some d else None
              | None => None
              end
  | None => None
  end.

(** The outcome of writing: what was written and how often the builders of the lazy
    fields ran; or a panic. *)
Inductive wres (A : Type) := WDone (a : A) (n : list nat) | WPanic | WStuck.
Arguments WDone {A}. Arguments WPanic {A}. Arguments WStuck {A}.
(** The outcome of reading. *)
Inductive rres (A : Type) := RDone (a : A) | RRefused | RStuck.
Arguments RDone {A}. Arguments RRefused {A}. Arguments RStuck {A}.

Section Serde.
(** The builder of a field by name and number of the call. *)
Variable bld : string -> nat -> outcome nat nat.
Variable alive : bool.
Variable dflt : nat.
Variable user : string -> nat.
(** Functions named by strings in [default("...")] of a field, and the fields of the
    shadow made by the value of [default(...)] of the struct. *)
Variable named : string -> option nat.
Variable given : field -> option nat.
Variable c : sctx.

(** serde.rs:405-411: [let _ = ...] for one field; the value is dropped, a future among
    it without having been polled. *)
Definition lazy_init (f : field) (v : val) : wres val :=
  match eval (bld (f_ident f)) (is_fallible c f) alive dflt user [("__me", VSelf)]
          (field_lazy_init c f "__me") (mk_st v 0 false 0) with
  | Ok _ s => WDone (fld s) [calls s]
  | Panic _ => WPanic
  | _ => WStuck
  end.
(** serde.rs:399-421 with 431: the initialisers run in the order of the fields. *)
Fixpoint lazy_inits (fs : list field) (o : list val) : wres (list val) :=
  match fs, o with
  | [], [] => WDone [] []
  | f :: fs', v :: o' =>
      match (if is_serde c f && needs_serialize c f && is_lazy c f
             then lazy_init f v else WDone v []) with
      | WDone w n =>
          match lazy_inits fs' o' with
          | WDone ws ns => WDone (w :: ws) (n ++ ns)
          | WPanic => WPanic
          | WStuck => WStuck
          end
      | WPanic => WPanic
      | WStuck => WStuck
      end
  | _, _ => WStuck
  end.
(** serde.rs:414, 432-434: the literal of the shadow. *)
Fixpoint fetch (fs : list field) (o : list val) : option (list val) :=
  match fs, o with
  | [], [] => Some []
  | f :: fs', v :: o' =>
      if is_serde c f then
        if needs_serialize c f then
          match run_value (bld (f_ident f)) (is_fallible c f) alive dflt user
                  (shadow_type (cfg_of c f)) (field_from_struct c f) v with
          | inl (Some (w, _)) => option_map (cons w) (fetch fs' o')
          | _ => None
          end
        else None                       (* not in the literal *)
      else fetch fs' o'
  | _, _ => None
  end.
Definition into_shadow (o : list val) : wres (list val) :=
  if into_shadow_emitted c then
    match lazy_inits (all_fields c) o with
    | WDone o' n => match fetch (all_fields c) o' with Some s => WDone s n | None => WStuck end
    | WPanic => WPanic
    | WStuck => WStuck
    end
  else WStuck.

(** serde's Serialize for the shadow (140-157 with the attribute of 55-115). *)
Definition shown (v : val) : option (option nat) :=
  match v with
  | VT n | VSome (VT n) => Some (Some n)
  | VNone => Some None
  | _ => None
  end.
Fixpoint show_shadow (fs : list field) (s : list val) : option document :=
  match fs, s with
  | [], [] => Some []
  | f :: fs', v :: s' =>
      match show_shadow fs' s' with
      | None => None
      | Some d =>
          if fst (shadow_skip c f) then Some d
          else option_map (fun w => (doc_key f, w) :: d) (shown v)
      end
  | _, _ => None
  end.
Definition serialise (o : list val) : wres document :=
  match into_shadow o with
  | WDone s n => match show_shadow (shadow_input c) s with Some d => WDone d n | None => WStuck end
  | WPanic => WPanic
  | WStuck => WStuck
  end.

(** serde.rs:128-138 (serde_shadow_field_value) around a value [n]. *)
Definition shadow_value (g : fcfg) (n : nat) : val :=
  if serde_optional g then VSome (VT n) else VT n.
(** serde.rs:72-97 and 191-221: the [default] put on a field of the shadow; for the bare
    word serde uses Default of the type. *)
Definition field_missing (f : field) : option (option val) :=
  let g := cfg_of c f in
  match serde_default_arg (f_serde f) with
  | None => None
  | Some d =>
      Some (match d_value d with
            | None => of_default dflt (shadow_type g)
            | Some t => if d_is_str d then rep (shadow_type g) (named t)
                        else Some (shadow_value g (user t))
            end)
  end.
(** serde.rs:473-533 (serde_shadow_default_fn) and 313-331: [default] put on the shadow;
    the bare word means Default of the shadow, emitted with needs_default. *)
Definition struct_missing (f : field) : option (option val) :=
  let g := cfg_of c f in
  match serde_default_arg (s_serde (c_args c)) with
  | None => None
  | Some d =>
      Some (match d_value d with
            | None =>
                if needs_default c then
                  match run_value (bld (f_ident f)) (is_fallible c f) alive dflt user
                          (shadow_type g) (shadow_default g) VUnit with
                  | inl (Some (v, _)) => Some v
                  | _ => None
                  end
                else None
            | Some _ => rep (shadow_type g) (given f)
            end)
  end.
(** serde's derive: the default of the field, else that of the struct; for
    skip_deserializing else Default of the type; else None for an Option. *)
Definition missing (f : field) : rres val :=
  let fix_up (r : option val) : rres val := match r with Some v => RDone v | None => RStuck end in
  match field_missing f with
  | Some r => fix_up r
  | None =>
      match struct_missing f with
      | Some r => fix_up r
      | None =>
          if snd (shadow_skip c f) then fix_up (of_default dflt (shadow_type (cfg_of c f)))
          else if serde_optional (cfg_of c f) then RDone VNone else RRefused
      end
  end.
Definition read_field (f : field) (d : document) : rres val :=
  if snd (shadow_skip c f) then missing f
  else match look d (doc_key f) with
       | Some (Some n) => RDone (shadow_value (cfg_of c f) n)
       | Some None => if serde_optional (cfg_of c f) then RDone VNone else RRefused
       | None => missing f
       end.
Fixpoint read_shadow (fs : list field) (d : document) : rres (list val) :=
  match fs with
  | [] => RDone []
  | f :: fs' =>
      match read_field f d, read_shadow fs' d with
      | RDone v, RDone vs => RDone (v :: vs)
      | RStuck, _ | _, RStuck => RStuck
      | _, _ => RRefused
      end
  end.

(** codegen.rs:282-310: Default::default() of the struct. *)
Definition field_value (t : ty) (e : gres expr) (f : field) (v : val) : option val :=
  match e with
  | GOk e =>
      match run_value (bld (f_ident f)) (is_fallible c f) alive dflt user t e v with
      | inl (Some (w, _)) => Some w
      | _ => None
      end
  | _ => None
  end.
Definition default_value_of (f : field) : option val :=
  match field_type c f with
  | GOk t => field_value t (field_default c f) f VUnit
  | _ => None
  end.
Fixpoint default_object (fs : list field) : option (list val) :=
  match fs with
  | [] => Some []
  | f :: fs' =>
      match default_value_of f, default_object fs' with
      | Some v, Some vs => Some (v :: vs)
      | _, _ => None
      end
  end.
(** serde.rs:339-389: the literal, the rest from [..Self::default()] ([base]). *)
Fixpoint from_fields (fs : list field) (s : list val) (base : option (list val)) : option (list val) :=
  match fs with
  | [] => match s with [] => Some [] | _ => None end
  | f :: fs' =>
      let rest := option_map (@tl val) base in
      let dv := match base with Some (v :: _) => Some v | _ => None end in
      match (if is_serde c f then match s with v :: s' => Some (Some v, s') | [] => None end
             else Some (None, s)) with
      | None => None
      | Some (v, s') =>
          let w := match v with
                   | Some v =>
                       if needs_deserialize c f then
                         match field_type c f with
                         | GOk t => field_value t (field_from_shadow c f) f v
                         | _ => None
                         end
                       else dv
                   | None => dv
                   end in
          match w, from_fields fs' s' rest with
          | Some w, Some ws => Some (w :: ws)
          | _, _ => None
          end
      end
  end.
Definition from_shadow (s : list val) : option (list val) :=
  if from_shadow_emitted c then
    if needs_default c then
      match default_object (all_fields c) with
      | Some b => from_fields (all_fields c) s (Some b)
      | None => None
      end
    else from_fields (all_fields c) s None
  else None.
Definition deserialise (d : document) : rres (list val) :=
  match read_shadow (shadow_input c) d with
  | RDone s => match from_shadow s with Some o => RDone o | None => RStuck end
  | RRefused => RRefused
  | RStuck => RStuck
  end.

(** ** Vocabulary of the theorems *)
(** The storages hold these contents. *)
Fixpoint stores (fs : list field) (ks : list (option nat)) (o : list val) : Prop :=
  match fs, ks, o with
  | [], [], [] => True
  | f :: fs', k :: ks', v :: o' =>
      (exists t, field_type c f = GOk t /\ rep t k = Some v) /\ stores fs' ks' o'
  | _, _, _ => False
  end.
(** The conversions compile: every value has the type of its place, every field is
    given (CodegenProps.v, C38 and C41, say when). *)
Definition into_compiles : Prop :=
  into_shadow_emitted c = true /\
  complete (lit_idents (into_shadow_literal c)) (lit_base (into_shadow_literal c)) (map fst (shadow_fields c)) /\
  forall f t, In f (serialized c) -> field_type c f = GOk t ->
    has_type (in_into_shadow true t TUnit) (field_from_struct c f) (shadow_type (cfg_of c f)) = true.
Definition from_compiles : Prop :=
  from_shadow_emitted c = true /\
  complete (lit_idents (from_shadow_literal c)) (lit_base (from_shadow_literal c)) (map fst (struct_fields c)) /\
  (forall f, In f (all_fields c) -> exists t, field_type c f = GOk t) /\
  (needs_default c = true -> forall f t e, In f (all_fields c) -> field_type c f = GOk t ->
     field_default c f = GOk e -> has_type (in_default true TUnit) e t = true).
(** serde's default attributes make sense: the functions named by strings return a value
    for a field that cannot be empty, and the shadow has a Default where one is asked for. *)
Definition defaults_make_sense : Prop :=
  (forall f d t, In f (shadow_input c) -> serde_default_arg (f_serde f) = Some d ->
     d_value d = Some t -> d_is_str d = true -> is_lazy c f || is_optional c f = false -> named t <> None) /\
  (forall d, serde_default_arg (s_serde (c_args c)) = Some d ->
     match d_value d with
     | None => needs_default c = true
     | Some _ => forall f, In f (shadow_input c) -> is_lazy c f || is_optional c f = false -> given f <> None
     end).

(** The default the user gave, or None for a field that may be empty. *)
Definition own_default (f : field) : option nat :=
  match default_value f with
  | Some d => Some (user (fst d))
  | None => if is_lazy c f || is_optional c f then None else Some dflt
  end.
(** What is written in serde(default(...)) unless it is off (lib.rs:405-422); said
    independently of [serde_default_arg]. *)
Definition told_arg (s : option serde) : option defarg :=
  match s with
  | Some (mk_serde _ _ _ _ _ _ _ (Some (mk_defarg false v str)) _) => Some (mk_defarg false v str)
  | _ => None
  end.
(** The default given to serde: for the field, or for the struct (lib.rs:405-422,
    565-568). *)
Definition told (f : field) : option (option nat) :=
  let empty := if is_lazy c f || is_optional c f then None else Some dflt in
  match told_arg (f_serde f) with
  | Some d => Some (match d_value d with
                    | None => empty
                    | Some t => if d_is_str d then named t else Some (user t)
                    end)
  | None =>
      match told_arg (s_serde (c_args c)) with
      | Some d => Some (match d_value d with None => own_default f | Some _ => given f end)
      | None => None
      end
  end.
Definition slot_of (f : field) : slot :=
  mk_slot (doc_key f) (field_serializes f) (field_deserializes f) (is_lazy c f)
    (is_lazy c f || is_optional c f) (own_default f) (told f) (bld (f_ident f) 0).
Definition slots : list slot := map slot_of (all_fields c).
End Serde.
