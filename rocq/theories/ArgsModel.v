(** Arguments of [#[fxstruct(...)]] and [#[fieldx(...)]] after parsing, and the
    questions fields.rs and util/args.rs answer about them.

    Common simplifications: source spans are dropped (they only place compiler
    messages); types, visibilities, paths and attributes are kept as strings; an
    [Option<FXBool>] argument ([FXNestingAttr<FXValueArg<(), true>>],
    fieldx_aux/src/value.rs:16-21, lib.rs:205) is an [option bool] holding what its
    [is_true] answers: [Some true] for [arg], [Some false] for [arg(off)].  Cargo
    features sync, async and serde are taken to be on. *)
From Coq Require Import List Bool String.
Import ListNotations.
Open Scope string_scope.

(** fieldx_aux/src/lib.rs:95-111 (FXPubMode). *)
Inductive pubmode := PMPrivate | PMCrate | PMSuper | PMInMod (path : string) | PMAll.

(** fieldx_aux/src/lib.rs:144-155 (FXSyncMode). *)
Inductive syncmode := MSync | MAsync | MPlain.

(** fieldx_aux/src/lib.rs:175-185. *)
Definition mode_is_sync (m : syncmode) : bool :=
  match m with MSync => true | _ => false end.
Definition mode_is_async (m : syncmode) : bool :=
  match m with MAsync => true | _ => false end.

(** fieldx_aux/src/accessor_helper.rs:14-26 (FXAccessorMode). *)
Inductive accmode := AMCopy | AMClone | AMAsRef | AMNone.

(** Derived PartialEq, accessor_helper.rs:14. *)
Definition accmode_eqb (a b : accmode) : bool :=
  match a, b with
  | AMCopy, AMCopy | AMClone, AMClone | AMAsRef, AMAsRef | AMNone, AMNone => true
  | _, _ => false
  end.

(** fieldx_derive/src/helper.rs:5-15 (FXHelperKind). *)
Inductive hkind :=
| KAccessor | KAccessorMut | KBuilder | KClearer | KLazy | KPredicate | KReader
| KSetter | KWriter.

(** fieldx_aux/src/value.rs:16-21 at type String (FXString). *)
Record strarg := mk_strarg { sa_off : bool; sa_value : option string }.

(** fieldx_aux/src/value.rs:48-55 (FXValueArg::value). *)
Definition strarg_value (s : strarg) : option string :=
  if negb (sa_off s) then sa_value s else None.

(** The parts every helper argument has:
    fieldx_derive_support/src/lib.rs:192-208 (struct made by fxhelper), which
    is all of FXBaseHelper, fieldx_aux/src/base_helper.rs:19-21. *)
Record helper := mk_helper {
  h_off : bool;
  h_name : option strarg;
  h_attributes_fn : option (list string);
  h_public : option pubmode;
  h_private : option bool
}.

(** FXHelperTrait::name, fieldx_derive_support/src/lib.rs:217-226. *)
Definition helper_name_of (h : helper) : option string :=
  match h_name h with Some n => strarg_value n | None => None end.

(** FXTriggerHelper::is_true, fieldx_derive_support/src/lib.rs:210-214. *)
Definition helper_is_true (h : helper) : bool := negb (h_off h).

(** fieldx_aux/src/util.rs:145-153 (public_mode). *)
Definition public_mode (public : option pubmode) (private : option bool) : option pubmode :=
  if match private with Some p => p | None => false end
  then Some PMPrivate
  else public.

(** fieldx_derive_support/src/lib.rs:233-236. *)
Definition helper_public_mode (h : helper) : option pubmode :=
  public_mode (h_public h) (h_private h).

(** Default::default() of a helper, used by for_keyword (a bare [get], [lazy], ...):
    fieldx_aux/src/base_helper.rs:36-38, accessor_helper.rs:75-77,
    setter_helper.rs:35-37, builder_helper.rs:128-130. *)
Definition helper_default : helper := mk_helper false None None None None.

(** From<bool> for FXBaseHelper: fieldx_aux/src/base_helper.rs:53-60; From<FXBaseHelper>
    for bool: 41-51. *)
Definition helper_from_bool (b : bool) : helper := mk_helper b None None None None.
Definition bool_from_helper (h : helper) : bool := helper_is_true h.

(** fieldx_aux/src/accessor_helper.rs:29-40 (FXAccessorHelper). *)
Record accessor := mk_accessor {
  a_base : helper; a_clone : bool; a_copy : bool; a_as_ref : bool
}.

(** fieldx_aux/src/accessor_helper.rs:43-56 (mode). *)
Definition accessor_arg_mode (a : accessor) : option accmode :=
  if a_clone a then Some AMClone
  else if a_copy a then Some AMCopy
  else if a_as_ref a then Some AMAsRef
  else None.

(** fieldx_aux/src/setter_helper.rs:10-15, is_into at 25-28. *)
Record setter := mk_setter { st_base : helper; st_into : option bool }.

(** fieldx_aux/src/builder_helper.rs:16-56 (FXBuilderHelper).  [b_post_build] is
    [Some None] for a bare post_build, [b_error] the list of one or two paths. *)
Record builder := mk_builder {
  b_base : helper;
  b_attributes : option (list string);
  b_attributes_impl : option (list string);
  b_into : option bool;
  b_required : option bool;
  b_opt_in : option bool;
  b_post_build : option (option string);
  b_error : option (list string)
}.

(** fieldx_aux/src/fallible.rs:8-15 (FXFallible). *)
Record fallible := mk_fallible { fl_off : bool; fl_error : option string }.
Definition fallible_is_true (f : fallible) : bool := negb (fl_off f).

(** fieldx_aux/src/default_arg.rs:14-22 (FXDefault); the value is the text of the
    nested item, [d_is_str] tells a string literal from anything else. *)
Record defarg := mk_defarg { d_off : bool; d_value : option string; d_is_str : bool }.
Definition defarg_is_true (d : defarg) : bool := negb (d_off d).
(** default_arg.rs:44-78 (from_list) and 80-91 (from_word) with OPTIONAL = true, the
    instance used by fields.rs:60 and serde_helper.rs:28.  An item is its text and
    whether it is a string literal; [None] stands for the parse errors. *)
Definition default_from_list (items : list (string * bool)) : option defarg :=
  match items with
  | [] => Some (mk_defarg false None false)
  | [(v, str)] => Some (mk_defarg false (Some v) str)
  | [(k, kstr); (v, str)] =>
      if String.eqb k "off" && negb kstr then Some (mk_defarg true (Some v) str) else None
  | _ => None
  end.
Definition default_from_word : defarg := mk_defarg false None false.

(** fieldx_aux/src/serde_helper.rs:14-32 (FXSerdeHelper). *)
Record serde := mk_serde {
  se_off : bool;
  se_public : option pubmode;
  se_private : option bool;
  se_attributes : option (list string);
  se_serialize : option bool;
  se_deserialize : option bool;
  se_forward_attrs : option (list string);
  se_default : option defarg;
  se_shadow_name : option strarg
}.

(** fieldx_aux/src/serde_helper.rs:57-62 (needs_serialize). *)
Definition serde_needs_serialize (s : serde) : option bool :=
  match se_serialize s with
  | Some b => Some b
  | None => match se_deserialize s with Some d => Some (negb d) | None => None end
  end.

(** fieldx_aux/src/serde_helper.rs:64-69 (needs_deserialize). *)
Definition serde_needs_deserialize (s : serde) : option bool :=
  match se_deserialize s with
  | Some b => Some b
  | None => match se_serialize s with Some d => Some (negb d) | None => None end
  end.

(** Option::unwrap_or of the standard library, used throughout ctx/field.rs:19-32. *)
Definition unwrap_or {A} (o : option A) (d : A) : A :=
  match o with Some a => a | None => d end.
(** Option::or_else, as in ctx/field.rs:19-32. *)
Definition or_else {A} (o o' : option A) : option A :=
  match o with Some a => Some a | None => o' end.
(** Option::is_some, as in serde_helper.rs:73. *)
Definition is_some {A} (o : option A) : bool :=
  match o with Some _ => true | None => false end.

(** fieldx_aux/src/serde_helper.rs:71-87 (is_serde). *)
Definition serde_is_serde (s : serde) : option bool :=
  if negb (se_off s) then
    if negb (is_some (se_serialize s)) && negb (is_some (se_deserialize s)) then None
    else Some (unwrap_or (se_serialize s) true || unwrap_or (se_deserialize s) true)
  else Some false.

(** fieldx_derive/src/fields.rs:20-77 (FXFieldReceiver). *)
Record field := mk_field {
  f_ident : string;
  f_vis : string;
  f_ty : string;
  f_attrs : list string;
  f_skip : bool;
  f_mode : option syncmode;
  f_mode_sync : option bool;
  f_mode_async : option bool;
  f_attributes_fn : option (list string);
  f_fallible : option fallible;
  f_lazy : option helper;
  f_base_name : option strarg;
  f_accessor : option accessor;
  f_accessor_mut : option helper;
  f_setter : option setter;
  f_reader : option helper;
  f_writer : option helper;
  f_clearer : option helper;
  f_predicate : option helper;
  f_optional : option bool;
  f_public : option pubmode;
  f_private : option bool;
  f_default : option defarg;
  f_builder : option builder;
  f_into : option bool;
  f_clone : option bool;
  f_copy : option bool;
  f_lock : option bool;
  f_inner_mut : option bool;
  f_serde : option serde
}.

(** fieldx_derive/src/util/args.rs:19-65 (FXSArgs). *)
Record sargs := mk_sargs {
  s_mode : option syncmode;
  s_mode_sync : option bool;
  s_mode_async : option bool;
  s_builder : option builder;
  s_into : option bool;
  s_no_new : option bool;
  s_default : option bool;
  s_rc : option helper;
  s_attributes : option (list string);
  s_attributes_impl : option (list string);
  s_fallible : option fallible;
  s_lazy : option helper;
  s_accessor : option accessor;
  s_accessor_mut : option helper;
  s_setter : option setter;
  s_reader : option helper;
  s_writer : option helper;
  s_clearer : option helper;
  s_predicate : option helper;
  s_optional : option bool;
  s_public : option pubmode;
  s_private : option bool;
  s_clone : option bool;
  s_copy : option bool;
  s_lock : option bool;
  s_inner_mut : option bool;
  s_serde : option serde
}.

(** [.as_ref().map(|h| h.is_true())], fieldx_aux/src/traits.rs:55-66 (is_true_opt) and
    fieldx_derive/src/util.rs (macro needs_helper). *)
Definition on_off (h : option helper) : option bool := option_map helper_is_true h.

(** The base part of an argument with extra sub-arguments; get_helper coerces to it,
    fields.rs:397-409. *)
Definition acc_base (a : option accessor) : option helper := option_map a_base a.
Definition set_base (a : option setter) : option helper := option_map st_base a.
Definition bld_base (a : option builder) : option helper := option_map b_base a.

(** ** fields.rs *)

(** fields.rs:176-183 (unless_skip). *)
Definition unless_skip (f : field) (h : option helper) : option bool :=
  if f_skip f then Some false else on_off h.

(** fields.rs:138 (needs_helper!), util.rs (macro). *)
Definition f_needs_accessor (f : field) := on_off (acc_base (f_accessor f)).
Definition f_needs_accessor_mut (f : field) := on_off (f_accessor_mut f).
Definition f_needs_builder (f : field) := on_off (bld_base (f_builder f)).
Definition f_needs_clearer (f : field) := on_off (f_clearer f).
Definition f_needs_setter (f : field) := on_off (set_base (f_setter f)).
Definition f_needs_predicate (f : field) := on_off (f_predicate f).
Definition f_needs_reader (f : field) := on_off (f_reader f).
Definition f_needs_writer (f : field) := on_off (f_writer f).

(** fields.rs:186-188. *)
Definition f_public_mode (f : field) := public_mode (f_public f) (f_private f).

(** fields.rs:206-211 (is_async). *)
Definition f_is_async (f : field) : option bool :=
  or_else (f_mode_async f) (option_map mode_is_async (f_mode f)).

(** fields.rs:300-302 (is_inner_mut), 213-215 (is_plain). *)
Definition f_is_inner_mut (f : field) : option bool := f_inner_mut f.
Definition f_is_plain (f : field) : option bool := f_is_inner_mut f.

(** fields.rs:217-237 (is_sync). *)
Definition f_is_sync (f : field) : option bool :=
  or_else (f_mode_sync f)
  (or_else (option_map mode_is_sync (f_mode f))
  (or_else (f_is_async f)
  (or_else (f_lock f)
  (or_else (option_map negb (f_is_plain f))
  (if unwrap_or (on_off (f_reader f)) false || unwrap_or (on_off (f_writer f)) false
   then Some true else None))))).

(** fields.rs:240-262. *)
Definition f_is_fallible (f : field) : option bool := option_map fallible_is_true (f_fallible f).
Definition f_is_lazy (f : field) : option bool := unless_skip f (f_lazy f).
Definition f_is_into (f : field) : option bool := f_into f.
Definition f_is_setter_into (f : field) : option bool :=
  match f_setter f with Some s => st_into s | None => None end.
Definition f_is_builder_into (f : field) : option bool :=
  match f_builder f with Some b => b_into b | None => None end.

(** fields.rs:265-282 (is_copy, is_clone); [self.clone.is_true()] is
    [map_or(false, is_true)], fieldx_aux/src/traits.rs:56-59. *)
Definition f_is_copy (f : field) : option bool :=
  if unwrap_or (f_clone f) false then Some false else f_copy f.
Definition f_is_clone (f : field) : option bool :=
  if unwrap_or (f_copy f) false then Some false else f_clone f.

(** fields.rs:342-344 (accessor_mode), 285-292. *)
Definition f_accessor_mode (f : field) : option accmode :=
  match f_accessor f with Some a => accessor_arg_mode a | None => None end.
Definition f_is_accessor_copy (f : field) : option bool :=
  option_map (accmode_eqb AMCopy) (f_accessor_mode f).
Definition f_is_accessor_clone (f : field) : option bool :=
  option_map (accmode_eqb AMClone) (f_accessor_mode f).

(** fields.rs:295-297, 305-307, 316-318. *)
Definition f_is_skipped (f : field) : bool := f_skip f.
Definition f_needs_lock (f : field) : option bool := f_lock f.
Definition f_is_optional (f : field) : option bool := f_optional f.

(** fields.rs:311-313, 322-330. *)
Definition f_is_serde (f : field) : option bool :=
  match f_serde f with Some s => serde_is_serde s | None => None end.
Definition f_needs_serialize (f : field) : option bool :=
  match f_serde f with Some s => serde_needs_serialize s | None => None end.
Definition f_needs_deserialize (f : field) : option bool :=
  match f_serde f with Some s => serde_needs_deserialize s | None => None end.

(** fields.rs:333-340 (has_default_value). *)
Definition f_has_default_value (f : field) : bool :=
  match f_default f with Some d => defarg_is_true d | None => false end.

(** fields.rs:196-203 (base_name). *)
Definition f_base_name_of (f : field) : option string :=
  match f_base_name f with Some n => strarg_value n | None => None end.

(** fields.rs:391-393 (fallible_error). *)
Definition f_fallible_error (f : field) : option string :=
  match f_fallible f with Some x => fl_error x | None => None end.

(** fields.rs:397-409 (get_helper). *)
Definition f_get_helper (f : field) (k : hkind) : option helper :=
  match k with
  | KAccessor => acc_base (f_accessor f)
  | KAccessorMut => f_accessor_mut f
  | KBuilder => bld_base (f_builder f)
  | KClearer => f_clearer f
  | KLazy => f_lazy f
  | KPredicate => f_predicate f
  | KReader => f_reader f
  | KSetter => set_base (f_setter f)
  | KWriter => f_writer f
  end.

(** fields.rs:346-356 (mark_implicitly), called for a bare [#[fieldx]], 84-95. *)
Definition mark_implicitly (f : field) : field :=
  match f_lazy f with
  | None =>
      mk_field (f_ident f) (f_vis f) (f_ty f) (f_attrs f) (f_skip f) (f_mode f)
        (f_mode_sync f) (f_mode_async f) (f_attributes_fn f) (f_fallible f)
        (Some (helper_from_bool true)) (f_base_name f) (f_accessor f) (f_accessor_mut f)
        (f_setter f) (f_reader f) (f_writer f)
        (Some (helper_from_bool true)) (Some (helper_from_bool true))
        (f_optional f) (f_public f) (f_private f) (f_default f) (f_builder f) (f_into f)
        (f_clone f) (f_copy f) (f_lock f) (f_inner_mut f) (f_serde f)
  | Some _ => f
  end.

(** ** util/args.rs *)

(** util/args.rs:77 (needs_helper!). *)
Definition s_needs_accessor (s : sargs) := on_off (acc_base (s_accessor s)).
Definition s_needs_accessor_mut (s : sargs) := on_off (s_accessor_mut s).
Definition s_needs_setter (s : sargs) := on_off (set_base (s_setter s)).
Definition s_needs_reader (s : sargs) := on_off (s_reader s).
Definition s_needs_writer (s : sargs) := on_off (s_writer s).
Definition s_needs_clearer (s : sargs) := on_off (s_clearer s).
Definition s_needs_predicate (s : sargs) := on_off (s_predicate s).

(** util/args.rs:122-127 (is_async). *)
Definition s_is_async (s : sargs) : option bool :=
  or_else (s_mode_async s) (option_map mode_is_async (s_mode s)).

(** util/args.rs:110-119 (is_sync). *)
Definition s_is_sync (s : sargs) : option bool :=
  or_else (s_mode_sync s)
  (or_else (option_map (fun m => mode_is_sync m || mode_is_async m) (s_mode s))
  (or_else (s_is_async s)
  (or_else (s_lock s)
  (or_else (on_off (s_reader s))
           (on_off (s_writer s)))))).

(** util/args.rs:130-189. *)
Definition s_is_fallible (s : sargs) : option bool := option_map fallible_is_true (s_fallible s).
Definition s_is_ref_counted (s : sargs) : bool := unwrap_or (on_off (s_rc s)) false.
Definition s_is_into (s : sargs) : option bool := s_into s.
Definition s_is_copy (s : sargs) : option bool :=
  if unwrap_or (s_clone s) false then Some false else s_copy s.
Definition s_is_clone (s : sargs) : option bool :=
  if unwrap_or (s_copy s) false then Some false else s_clone s.
Definition s_accessor_mode (s : sargs) : option accmode :=
  match s_accessor s with Some a => accessor_arg_mode a | None => None end.
Definition s_is_accessor_copy (s : sargs) : option bool :=
  option_map (accmode_eqb AMCopy) (s_accessor_mode s).
Definition s_is_accessor_clone (s : sargs) : option bool :=
  option_map (accmode_eqb AMClone) (s_accessor_mode s).
Definition s_is_setter_into (s : sargs) : option bool :=
  match s_setter s with Some h => st_into h | None => None end.
Definition s_is_builder_into (s : sargs) : option bool :=
  match s_builder s with Some h => b_into h | None => None end.
Definition s_is_builder_required (s : sargs) : option bool :=
  match s_builder s with Some h => b_required h | None => None end.

(** util/args.rs:193-216. *)
Definition s_is_serde (s : sargs) : bool :=
  match s_serde s with Some w => unwrap_or (serde_is_serde w) true | None => false end.
Definition s_needs_serialize (s : sargs) : bool :=
  match s_serde s with Some w => unwrap_or (serde_needs_serialize w) true | None => false end.
Definition s_needs_deserialize (s : sargs) : bool :=
  match s_serde s with Some w => unwrap_or (serde_needs_deserialize w) true | None => false end.

(** util/args.rs:198-200, 219-252. *)
Definition s_is_optional (s : sargs) : option bool := s_optional s.
Definition s_needs_default (s : sargs) : option bool := s_default s.
Definition s_needs_new (s : sargs) : bool :=
  negb (unwrap_or (s_no_new s) false) && unwrap_or (s_needs_default s) true.
Definition s_needs_builder (s : sargs) : option bool := on_off (bld_base (s_builder s)).
Definition s_needs_lock (s : sargs) : option bool := s_lock s.
Definition s_is_lazy (s : sargs) : option bool := on_off (s_lazy s).
Definition s_is_inner_mut (s : sargs) : option bool := s_inner_mut s.

(** util/args.rs:271-273, 293-295. *)
Definition s_public_mode (s : sargs) := public_mode (s_public s) (s_private s).
Definition s_fallible_error (s : sargs) : option string :=
  match s_fallible s with Some x => fl_error x | None => None end.

(** util/args.rs:305-317 (get_helper). *)
Definition s_get_helper (s : sargs) (k : hkind) : option helper :=
  match k with
  | KAccessor => acc_base (s_accessor s)
  | KAccessorMut => s_accessor_mut s
  | KBuilder => bld_base (s_builder s)
  | KClearer => s_clearer s
  | KLazy => s_lazy s
  | KPredicate => s_predicate s
  | KReader => s_reader s
  | KSetter => set_base (s_setter s)
  | KWriter => s_writer s
  end.

(** ** Mutually exclusive arguments *)

(** fieldx_aux/src/util.rs:53-141 (validate_exclusives): a group is a list of
    alternatives, an alternative a list of (name, is it given and on?).  The result
    lists, per violated group, the group and the names set. *)
Definition group := (string * list (list (string * bool)))%type.

Definition set_params (alts : list (list (string * bool))) : list string :=
  map fst (filter snd (List.concat alts)).
Definition subgroups_set (alts : list (list (string * bool))) : nat :=
  List.length (filter (existsb snd) alts).

Definition validate_exclusives (gs : list group) : list (string * list string) :=
  flat_map (fun g => if Nat.ltb 1 (subgroups_set (snd g))
                     then [(fst g, set_params (snd g))] else []) gs.

(** [is_set] of util.rs:53-141: presence, and [is_true] of an optional flag,
    traits.rs:55-59. *)
Definition given {A} (o : option A) : bool := is_some o.
Definition on (o : option bool) : bool := unwrap_or o false.

(** fields.rs:128-134.  [public] and [mode] are always on when given
    (fieldx_aux/src/lib.rs:134-138, 187-189). *)
Definition field_groups (f : field) : list group :=
  [ ("visibility", [[("public", given (f_public f))]; [("private", on (f_private f))]]);
    ("accessor mode", [[("copy", on (f_copy f))]; [("clone", on (f_clone f))]]);
    ("field mode", [[("lazy", on (on_off (f_lazy f)))];
                    [("optional", on (f_optional f)); ("inner_mut", on (f_inner_mut f))]]);
    ("in-/fallible mode", [[("fallible", on (f_is_fallible f))];
                    [("lock", on (f_lock f)); ("optional", on (f_optional f));
                     ("inner_mut", on (f_inner_mut f))]]);
    ("concurrency mode", [[("sync", on (f_mode_sync f))]; [("async", on (f_mode_async f))];
                    [("inner_mut", on (f_inner_mut f))]; [("mode", given (f_mode f))]]) ].

(** util/args.rs:68-74. *)
Definition sargs_groups (s : sargs) : list group :=
  [ ("visibility", [[("public", given (s_public s))]; [("private", on (s_private s))]]);
    ("accessor mode", [[("copy", on (s_copy s))]; [("clone", on (s_clone s))]]);
    ("concurrency mode", [[("sync", on (s_mode_sync s)); ("r#async", on (s_mode_async s))];
                    [("inner_mut", on (s_inner_mut s))]; [("mode", given (s_mode s))]]);
    ("field mode", [[("lazy", on (on_off (s_lazy s)))];
                    [("optional", on (s_optional s)); ("inner_mut", on (s_inner_mut s))]]);
    ("serde/ref.counting", [[("serde", match s_serde s with Some w => negb (se_off w) | None => false end)];
                    [("rc", on (on_off (s_rc s)))]]) ].

(** fields.rs:140-173 (validate) and util/args.rs:80-107 with all features on. *)
Definition field_errors (f : field) : list (string * list string) :=
  validate_exclusives (field_groups f).
Definition sargs_errors (s : sargs) : list (string * list string) :=
  validate_exclusives (sargs_groups s).

(** Validation done inside a helper, fieldx_derive_support/src/lib.rs:64-72, 146-172:
    per group the names given; here the two groups that exist: visibility of every
    helper, and the accessor mode of [get] (accessor_helper.rs:34-39).  Note that
    visibility tests presence only, so that [private(off)] counts as given. *)
Definition helper_exclusives_ok (h : helper) : bool :=
  negb (given (h_public h) && given (h_private h)).
Definition accessor_exclusives_ok (a : accessor) : bool :=
  helper_exclusives_ok (a_base a)
  && negb (Nat.ltb 1 (List.length (filter (fun b => b) [a_clone a; a_copy a; a_as_ref a]))).
(** fieldx_aux/src/builder_helper.rs:99-123 (validate) for a field-level builder. *)
Definition field_builder_ok (b : builder) : bool :=
  helper_exclusives_ok (b_base b)
  && negb (given (b_error b)) && negb (given (b_post_build b)) && negb (given (b_opt_in b)).

(** ** A field (fields.rs:20-77) and a struct (util/args.rs:19-65) with no arguments,
    for concrete cases. *)
Definition bare_field (name ty : string) : field :=
  mk_field name "" ty [] false None None None None None None None None None None None None
    None None None None None None None None None None None None None.
Definition bare_sargs : sargs :=
  mk_sargs None None None None None None None None None None None None None None None
    None None None None None None None None None None None None.
