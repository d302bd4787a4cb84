(** What the documentation promises about arguments (fieldx_derive/src/lib.rs doc
    comments, README.md), stated over what the user wrote, without using the
    resolution functions of ArgsModel.v and CtxModel.v.  *)
From Coq Require Import List Bool String Arith.
From Verif Require Import ArgsModel.
Import ListNotations.
Open Scope string_scope.

(** ** Yes/no features (C28, C30) *)
Inductive feature :=
| FtLazy | FtGet | FtGetMut | FtSet | FtReader | FtWriter | FtClearer | FtPredicate
| FtOptional | FtLock | FtInnerMut | FtBuilder | FtBuilderInto | FtSetterInto
| FtRequired | FtCopy | FtClone | FtFallible.

Definition all_features : list feature :=
  [FtLazy; FtGet; FtGetMut; FtSet; FtReader; FtWriter; FtClearer; FtPredicate;
   FtOptional; FtLock; FtInnerMut; FtBuilder; FtBuilderInto; FtSetterInto;
   FtRequired; FtCopy; FtClone; FtFallible].

(** [arg] says yes, [arg(off)] says no, absence says nothing. *)
Definition said (h : option helper) : option bool :=
  match h with Some x => Some (if h_off x then false else true) | None => None end.

(** The first of several places that says something. *)
Fixpoint first_said {A} (l : list (option A)) : option A :=
  match l with
  | [] => None
  | x :: t => match x with Some a => Some a | None => first_said t end
  end.

(** What [get(copy|clone|as_ref)] says about copying (cloning). *)
Definition get_says (want : accmode) (a : option accessor) : option bool :=
  match a with
  | None => None
  | Some x =>
      match a_clone x, a_copy x, a_as_ref x with
      | false, false, false => None
      | true, _, _ => Some match want with AMClone => true | _ => false end
      | false, true, _ => Some match want with AMCopy => true | _ => false end
      | false, false, true => Some match want with AMAsRef => true | _ => false end
      end
  end.
(** [copy] and [clone] exclude each other: one of them on is the other one off. *)
Definition pair_says (mine other : option bool) : option bool :=
  match other with Some true => Some false | _ => mine end.

Definition field_says (f : field) (ft : feature) : option bool :=
  match ft with
  | FtLazy => said (f_lazy f)
  | FtGet => said (option_map a_base (f_accessor f))
  | FtGetMut => said (f_accessor_mut f)
  | FtSet => said (option_map st_base (f_setter f))
  | FtReader => said (f_reader f)
  | FtWriter => said (f_writer f)
  | FtClearer => said (f_clearer f)
  | FtPredicate => said (f_predicate f)
  | FtOptional => f_optional f
  | FtLock => f_lock f
  | FtInnerMut => f_inner_mut f
  | FtBuilder => said (option_map b_base (f_builder f))
  | FtBuilderInto =>
      first_said [match f_builder f with Some b => b_into b | None => None end; f_into f]
  | FtSetterInto =>
      first_said [match f_setter f with Some s => st_into s | None => None end; f_into f]
  | FtRequired => match f_builder f with Some b => b_required b | None => None end
  | FtCopy => first_said [get_says AMCopy (f_accessor f); pair_says (f_copy f) (f_clone f)]
  | FtClone => first_said [get_says AMClone (f_accessor f); pair_says (f_clone f) (f_copy f)]
  | FtFallible => option_map (fun x => if fl_off x then false else true) (f_fallible f)
  end.

(** A struct-level [builder(opt_in)] makes no builder methods unless asked. *)
Definition struct_says (s : sargs) (ft : feature) : option bool :=
  match ft with
  | FtLazy => said (s_lazy s)
  | FtGet => said (option_map a_base (s_accessor s))
  | FtGetMut => said (s_accessor_mut s)
  | FtSet => said (option_map st_base (s_setter s))
  | FtReader => said (s_reader s)
  | FtWriter => said (s_writer s)
  | FtClearer => said (s_clearer s)
  | FtPredicate => said (s_predicate s)
  | FtOptional => s_optional s
  | FtLock => s_lock s
  | FtInnerMut => s_inner_mut s
  | FtBuilder =>
      match s_builder s with
      | None => None
      | Some b => Some (if h_off (b_base b) then false
                        else match b_opt_in b with Some true => false | _ => true end)
      end
  | FtBuilderInto =>
      first_said [match s_builder s with Some b => b_into b | None => None end; s_into s]
  | FtSetterInto =>
      first_said [match s_setter s with Some x => st_into x | None => None end; s_into s]
  | FtRequired => match s_builder s with Some b => b_required b | None => None end
  | FtCopy => first_said [get_says AMCopy (s_accessor s); pair_says (s_copy s) (s_clone s)]
  | FtClone => first_said [get_says AMClone (s_accessor s); pair_says (s_clone s) (s_copy s)]
  | FtFallible => option_map (fun x => if fl_off x then false else true) (s_fallible s)
  end.

(** Documented implications between features. *)
Definition implied (eff : feature -> bool) (ft : feature) : bool :=
  match ft with
  | FtGet => eff FtClearer || eff FtPredicate || eff FtLazy || eff FtInnerMut
  | FtOptional => negb (eff FtLazy) && (eff FtClearer || eff FtPredicate)
  | FtLock => eff FtReader || eff FtWriter || eff FtOptional
  | _ => false
  end.

(** [eff] follows the documented precedence on every feature. *)
Definition precedence (s : sargs) (f : field) (eff : feature -> bool) : Prop :=
  forall ft,
    (forall b, field_says f ft = Some b -> eff ft = b) /\
    (forall b, field_says f ft = None -> struct_says s ft = Some b -> eff ft = b) /\
    (field_says f ft = None -> struct_says s ft = None -> eff ft = implied eff ft).

(** ** Exclusive arguments (C33) *)
Inductive argname :=
| NPublic | NPrivate | NCopy | NClone | NLazy | NOptional | NInnerMut | NFallible
| NLock | NSync | NAsync | NMode | NSerde | NRc.

(** Given and not switched off. *)
Definition enabled_f (f : field) (n : argname) : bool :=
  match n with
  | NPublic => match f_public f with Some _ => true | None => false end
  | NPrivate => match f_private f with Some true => true | _ => false end
  | NCopy => match f_copy f with Some true => true | _ => false end
  | NClone => match f_clone f with Some true => true | _ => false end
  | NLazy => match said (f_lazy f) with Some true => true | _ => false end
  | NOptional => match f_optional f with Some true => true | _ => false end
  | NInnerMut => match f_inner_mut f with Some true => true | _ => false end
  | NFallible => match f_fallible f with Some x => if fl_off x then false else true | None => false end
  | NLock => match f_lock f with Some true => true | _ => false end
  | NSync => match f_mode_sync f with Some true => true | _ => false end
  | NAsync => match f_mode_async f with Some true => true | _ => false end
  | NMode => match f_mode f with Some _ => true | None => false end
  | NSerde => match f_serde f with Some x => if se_off x then false else true | None => false end
  | NRc => false
  end.
Definition enabled_s (s : sargs) (n : argname) : bool :=
  match n with
  | NPublic => match s_public s with Some _ => true | None => false end
  | NPrivate => match s_private s with Some true => true | _ => false end
  | NCopy => match s_copy s with Some true => true | _ => false end
  | NClone => match s_clone s with Some true => true | _ => false end
  | NLazy => match said (s_lazy s) with Some true => true | _ => false end
  | NOptional => match s_optional s with Some true => true | _ => false end
  | NInnerMut => match s_inner_mut s with Some true => true | _ => false end
  | NFallible => match s_fallible s with Some x => if fl_off x then false else true | None => false end
  | NLock => match s_lock s with Some true => true | _ => false end
  | NSync => match s_mode_sync s with Some true => true | _ => false end
  | NAsync => match s_mode_async s with Some true => true | _ => false end
  | NMode => match s_mode s with Some _ => true | None => false end
  | NSerde => match s_serde s with Some x => if se_off x then false else true | None => false end
  | NRc => match said (s_rc s) with Some true => true | _ => false end
  end.

(** Which two arguments of a field (of a struct) do not go together. *)
Definition field_conflicts : list (string * list (argname * argname)) :=
  [("visibility", [(NPublic, NPrivate)]);
   ("accessor mode", [(NCopy, NClone)]);
   ("field mode", [(NLazy, NOptional); (NLazy, NInnerMut)]);
   ("in-/fallible mode", [(NFallible, NLock); (NFallible, NOptional); (NFallible, NInnerMut)]);
   ("concurrency mode", [(NSync, NAsync); (NSync, NInnerMut); (NSync, NMode);
                         (NAsync, NInnerMut); (NAsync, NMode); (NInnerMut, NMode)])].
Definition struct_conflicts : list (string * list (argname * argname)) :=
  [("visibility", [(NPublic, NPrivate)]);
   ("accessor mode", [(NCopy, NClone)]);
   ("concurrency mode", [(NSync, NInnerMut); (NSync, NMode); (NAsync, NInnerMut);
                         (NAsync, NMode); (NInnerMut, NMode)]);
   ("field mode", [(NLazy, NOptional); (NLazy, NInnerMut)]);
   ("serde/ref.counting", [(NSerde, NRc)])].

Definition clash (en : argname -> bool) (ps : list (argname * argname)) : Prop :=
  exists a b, In (a, b) ps /\ en a = true /\ en b = true.

(** Members of the groups, in the order in which a message lists them. *)
Definition field_members : list (string * list (argname * string)) :=
  [("visibility", [(NPublic, "public"); (NPrivate, "private")]);
   ("accessor mode", [(NCopy, "copy"); (NClone, "clone")]);
   ("field mode", [(NLazy, "lazy"); (NOptional, "optional"); (NInnerMut, "inner_mut")]);
   ("in-/fallible mode", [(NFallible, "fallible"); (NLock, "lock"); (NOptional, "optional");
                          (NInnerMut, "inner_mut")]);
   ("concurrency mode", [(NSync, "sync"); (NAsync, "async"); (NInnerMut, "inner_mut");
                         (NMode, "mode")])].
Definition struct_members : list (string * list (argname * string)) :=
  [("visibility", [(NPublic, "public"); (NPrivate, "private")]);
   ("accessor mode", [(NCopy, "copy"); (NClone, "clone")]);
   ("concurrency mode", [(NSync, "sync"); (NAsync, "r#async"); (NInnerMut, "inner_mut");
                         (NMode, "mode")]);
   ("field mode", [(NLazy, "lazy"); (NOptional, "optional"); (NInnerMut, "inner_mut")]);
   ("serde/ref.counting", [(NSerde, "serde"); (NRc, "rc")])].

(** ** Concurrency mode (C34, C35) *)

(** The mode a field's (a struct's) arguments ask for, in any of the spellings. *)
Definition field_asks_mode (f : field) (m : syncmode) : Prop :=
  match m with
  | MSync => f_mode_sync f = Some true \/ f_mode f = Some MSync
  | MAsync => f_mode_async f = Some true \/ f_mode f = Some MAsync
  | MPlain => f_mode f = Some MPlain
  end.
Definition struct_asks_mode (s : sargs) (m : syncmode) : Prop :=
  match m with
  | MSync => (s_mode_sync s = Some true /\ s_mode_async s <> Some true)
             \/ s_mode s = Some MSync
  | MAsync => s_mode_async s = Some true \/ s_mode s = Some MAsync
  | MPlain => s_mode s = Some MPlain
  end.
(** Nothing at the field decides its mode. *)
Definition no_mode_opinion (f : field) : Prop :=
  f_mode_sync f = None /\ f_mode_async f = None /\ f_mode f = None /\ f_lock f = None /\
  f_inner_mut f = None /\ said (f_reader f) <> Some true /\ said (f_writer f) <> Some true.
(** No mode argument is spelled [sync(off)] or [async(off)]. *)
Definition no_mode_off_f (f : field) : Prop :=
  f_mode_sync f <> Some false /\ f_mode_async f <> Some false.
Definition no_mode_off_s (s : sargs) : Prop :=
  s_mode_sync s <> Some false /\ s_mode_async s <> Some false.

(** A field asks for thread safety: by its mode or by asking for a lock. *)
Definition field_asks_sync (f : field) : Prop :=
  field_asks_mode f MSync \/ field_asks_mode f MAsync \/ f_lock f = Some true
  \/ said (f_reader f) = Some true \/ said (f_writer f) = Some true.

(** Nothing at the field speaks against thread safety. *)
Definition not_against_sync (f : field) : Prop :=
  f_mode_sync f <> Some false /\ f_mode_async f <> Some false /\
  f_mode f <> Some MPlain /\ f_mode f <> Some MAsync /\
  f_lock f <> Some false /\ f_inner_mut f = None.

(** ** Visibility (C32) *)
Definition place_vis (public : option pubmode) (private : option bool) : option string :=
  match private with
  | Some true => Some ""
  | _ => match public with
         | None => None
         | Some PMPrivate => Some ""
         | Some PMAll => Some "pub"
         | Some PMCrate => Some "pub(crate)"
         | Some PMSuper => Some "pub(super)"
         | Some (PMInMod p) => Some ("pub(in " ++ p ++ ")")
         end
  end.
Definition helper_vis (h : option helper) : option string :=
  match h with Some x => place_vis (h_public x) (h_private x) | None => None end.
(** The argument of kind [k] at the field (at the struct). *)
Definition field_arg (f : field) (k : hkind) : option helper :=
  match k with
  | KAccessor => option_map a_base (f_accessor f)
  | KAccessorMut => f_accessor_mut f
  | KBuilder => option_map b_base (f_builder f)
  | KClearer => f_clearer f
  | KLazy => f_lazy f
  | KPredicate => f_predicate f
  | KReader => f_reader f
  | KSetter => option_map st_base (f_setter f)
  | KWriter => f_writer f
  end.
Definition struct_arg (s : sargs) (k : hkind) : option helper :=
  match k with
  | KAccessor => option_map a_base (s_accessor s)
  | KAccessorMut => s_accessor_mut s
  | KBuilder => option_map b_base (s_builder s)
  | KClearer => s_clearer s
  | KLazy => s_lazy s
  | KPredicate => s_predicate s
  | KReader => s_reader s
  | KSetter => option_map st_base (s_setter s)
  | KWriter => s_writer s
  end.
Definition vis_spec (struct_vis : string) (s : sargs) (f : field) (k : hkind) : string :=
  match first_said [helper_vis (field_arg f k); place_vis (f_public f) (f_private f);
                    helper_vis (struct_arg s k); place_vis (s_public s) (s_private s)] with
  | Some v => v
  | None => struct_vis
  end.

(** ** Names (C37) *)

(** A usable string sub-argument: present, not switched off. *)
Definition given_name (h : option helper) : option string :=
  match h with
  | Some x => match h_name x with
              | Some n => if sa_off n then None else sa_value n
              | None => None
              end
  | None => None
  end.
(** Methods of the struct itself; a builder setter lives in the builder type. *)
Definition struct_kinds : list hkind :=
  [KAccessor; KAccessorMut; KClearer; KLazy; KPredicate; KReader; KSetter; KWriter].

(** ** Default (C46), README.md "Do We Need The Default Trait?" *)
Definition gives_default (f : field) : Prop :=
  exists d, f_default f = Some d /\ d_off d = false.
