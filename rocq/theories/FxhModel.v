(** The attribute macro fxhelper, fieldx_derive_support/src/lib.rs:35-254, which makes the
    types of helper arguments, and the checks it emits.

    Simplifications: a type is a path without generic arguments or something else; attributes
    but derive, visibilities, generics and spans are passed through and left out; of a message
    the group and the names are kept.  The HashMap of groups is a list of pairs whose order,
    when it is gone through (lib.rs:149), may be any. *)
From Coq Require Import List Bool String Arith Permutation.
From Verif Require Import FxhSpec.
Import ListNotations.
Open Scope string_scope.
Open Scope list_scope.

(** syn::Type as far as it is looked at, lib.rs:87-98. *)
Inductive hty := HPath (segments : list string) | HOther.
(** FXHelperField, lib.rs:14-23. *)
Record hfield := mk_hfield { hf_name : string; hf_ty : hty; hf_exclusive : option string }.
(** FXHelperStruct and FXHArgs, lib.rs:9-12, 25-33; of the attributes only the paths in derive. *)
Record hdecl := mk_hdecl { hd_name : string; hd_derives : list (list string); hd_fields : list hfield; hd_validate : option string }.
(** The methods by which options are tested, lib.rs:88-92. *)
Inductive check := IsPresent | IsSome.
(** A group as gathered in lib.rs:69, 102-107. *)
Definition hgroup := (string * list (string * check))%type.

(** syn::Path::is_ident, lib.rs:88, 140. *)
Definition is_word (p : list string) (s : string) : bool := match p with [x] => String.eqb x s | _ => false end.
(** lib.rs:87-100; [None] is the error of lines 96-98. *)
Definition check_of (t : hty) : option check :=
  match t with HPath p => Some (if is_word p "Flag" then IsPresent else IsSome) | HOther => None end.
(** lib.rs:102-107. *)
Fixpoint push (g : string) (x : string * check) (m : list hgroup) : list hgroup :=
  match m with
  | [] => [(g, [x])]
  | (k, l) :: r => if String.eqb k g then (k, l ++ [x]) :: r else (k, l) :: push g x r
  end.
(** The loop of lib.rs:82-115. *)
Fixpoint gather (fs : list hfield) (m : list hgroup) : option (list hgroup) :=
  match fs with
  | [] => Some m
  | f :: r =>
      match hf_exclusive f with
      | None => gather r m
      | Some g => match check_of (hf_ty f) with Some c => gather r (push g (hf_name f, c) m) | None => None end
      end
  end.
(** lib.rs:72-80. *)
Definition first_groups : list hgroup := [("visibility", [("public", IsSome); ("private", IsSome)])].

(** What is emitted, lib.rs:188-253: derives, fields with their types, the blocks of
    validate_exclusives, whether attributes() looks at a field, the function called last. *)
Record emitted := mk_emitted {
  em_name : string;
  em_derives : list (list string);
  em_fields : list (string * hty);
  em_blocks : list hgroup;
  em_attributes : bool;
  em_validate : option string
}.
(** lib.rs:194-206. *)
Definition common_fields : list (string * hty) :=
  [("name", HPath ["Option"]); ("off", HPath ["Flag"]); ("attributes_fn", HPath ["Option"]);
   ("public", HPath ["Option"]); ("private", HPath ["Option"])].
(** lib.rs:134-144. *)
Definition getters_derive (d : hdecl) : list (list string) :=
  if existsb (fun p => is_word p "Getters") (hd_derives d) then [] else [["Getters"]].
(** lib.rs:117-132. *)
Definition has_attributes (d : hdecl) : bool := existsb (fun f => String.eqb (hf_name f) "attributes") (hd_fields d).
(** lib.rs:188-253, the groups coming in the order of [gs]. *)
Definition emit (d : hdecl) (gs : list hgroup) : emitted :=
  mk_emitted (hd_name d) ([["FromMeta"]; ["Clone"]] ++ hd_derives d ++ getters_derive d)
    (common_fields ++ map (fun f => (hf_name f, hf_ty f)) (hd_fields d)) gs (has_attributes d) (hd_validate d).
(** The macro, lib.rs:35-254. *)
Definition expands (d : hdecl) (e : emitted) : Prop :=
  exists m gs, gather (hd_fields d) first_groups = Some m /\ Permutation m gs /\ e = emit d gs.

(** ** What rustc makes of it (an assumption; names are taken to mean what they say) *)
(** The last segment names the type or the trait, lib.rs:189-208. *)
Definition last_word (p : list string) : string := last p "".
(** Flag has is_present, Option has is_some: the calls of lib.rs:155. *)
Definition has_method (t : hty) (c : check) : bool :=
  match t, c with
  | HPath p, IsPresent => String.eqb (last_word p) "Flag"
  | HPath p, IsSome => String.eqb (last_word p) "Option"
  | HOther, _ => false
  end.
(** The type of a field, lib.rs:193-208. *)
Fixpoint type_of (n : string) (fs : list (string * hty)) : option hty :=
  match fs with [] => None | (k, t) :: r => if String.eqb k n then Some t else type_of n r end.
(** No name twice: of fields (lib.rs:193-208) or of traits derived (lib.rs:189-192). *)
Fixpoint no_twice (l : list string) : bool :=
  match l with [] => true | x :: r => negb (existsb (String.eqb x) r) && no_twice r end.
(** lib.rs:155, 119-123. *)
Definition can_test (e : emitted) (x : string * check) : bool :=
  match type_of (fst x) (em_fields e) with Some t => has_method t (snd x) | None => false end.
(** Does what is emitted in lib.rs:188-253 compile? *)
Definition compiles (e : emitted) : bool :=
  no_twice (map fst (em_fields e)) && no_twice (map last_word (em_derives e)) &&
  forallb (fun b => forallb (can_test e) (snd b)) (em_blocks e) &&
  (negb (em_attributes e) || can_test e ("attributes", IsSome)).

(** ** What it does *)
(** A field of a value: a Flag or an Option, lib.rs:193-208. *)
Inductive fval := FFlag (present : bool) | FOption (given : bool).
(** A value is what its fields are, lib.rs:193-208. *)
Definition typed (e : emitted) (v : string -> option fval) : Prop :=
  forall n t, In (n, t) (em_fields e) ->
    (has_method t IsPresent = true -> exists b, v n = Some (FFlag b)) /\ (has_method t IsSome = true -> exists b, v n = Some (FOption b)).
(** [self.f.is_present()] and [self.f.is_some()], lib.rs:155. *)
Definition tested (v : string -> option fval) (x : string * check) : option bool :=
  match v (fst x), snd x with Some (FFlag b), IsPresent => Some b | Some (FOption b), IsSome => Some b | _, _ => None end.
(** set_params of a block, lib.rs:154-158, 164. *)
Fixpoint set_params (v : string -> option fval) (l : list (string * check)) : option (list string) :=
  match l with
  | [] => Some []
  | x :: r =>
      match tested v x, set_params v r with
      | Some b, Some s => Some (if b then fst x :: s else s)
      | _, _ => None
      end
  end.
(** validate_exclusives, lib.rs:161-176, 240-244; [None] within: Ok. *)
Fixpoint validate_blocks (v : string -> option fval) (l : list hgroup) : option (option (string * list string)) :=
  match l with
  | [] => Some None
  | (g, cs) :: r =>
      match set_params v cs with
      | Some s => if Nat.ltb 1 (List.length s) then Some (Some (g, s)) else validate_blocks v r
      | None => None
      end
  end.
(** __validate_helper, lib.rs:178-187, 246-250; [own f]: does the function [f] accept the value? *)
Definition validate_helper (own : string -> bool) (e : emitted) (v : string -> option fval) : option verdict :=
  match validate_blocks v (em_blocks e) with
  | Some (Some (g, s)) => Some (Clash g s)
  | Some None =>
      match em_validate e with
      | Some f => Some (if own f then Fine else Refused)
      | None => Some Fine
      end
  | None => None
  end.
(** is_true and attributes().is_some(), lib.rs:210-214, 117-132. *)
Definition helper_on (v : string -> option fval) : option bool := option_map negb (tested v ("off", IsPresent)).
Definition attributes_given (e : emitted) (v : string -> option fval) : option bool :=
  if em_attributes e then tested v ("attributes", IsSome) else Some false.

(** ** The declarations *)
(** base_helper.rs:20-22. *)
Definition base_decl : hdecl := mk_hdecl "FXBaseHelper" [["Default"]; ["Debug"]] [] None.
(** accessor_helper.rs:28-39. *)
Definition accessor_decl : hdecl :=
  mk_hdecl "FXAccessorHelper" [["Default"]; ["Debug"]]
    [mk_hfield "clone" (HPath ["Flag"]) (Some "accessor mode"); mk_hfield "copy" (HPath ["Flag"]) (Some "accessor mode");
     mk_hfield "as_ref" (HPath ["Flag"]) (Some "accessor mode")] None.
(** setter_helper.rs:10-15. *)
Definition setter_decl : hdecl :=
  mk_hdecl "FXSetterHelper" [["Default"]; ["Debug"]; ["Getters"]] [mk_hfield "into" (HPath ["Option"]) None] None.
(** builder_helper.rs:13-56. *)
Definition builder_decl : hdecl :=
  mk_hdecl "FXBuilderHelper" [["Debug"]; ["Default"]; ["Getters"]]
    (map (fun n => mk_hfield n (HPath ["Option"]) None)
       ["attributes"; "attributes_impl"; "into"; "required"; "opt_in"; "post_build"; "error"]) (Some "Self::validate").
