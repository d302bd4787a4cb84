(** The grammar of the arguments of [#[fxstruct(...)]] and [#[fieldx(...)]], as a table of
    names and of what may follow each of them.  Nothing of the parser is used. *)
From Coq Require Import List Bool String Ascii.
From Verif Require Import ArgsModel ArgsSpec TokenSpec ParseInput ParseSpec.
Import ListNotations.
Open Scope string_scope.
Open Scope list_scope.

(** Two arguments that do not go together: if both are written, or if both are written and
    neither is switched off. *)
Inductive rule : Type := Given (a b : string) | On (a b : string).
Definition given_in (n : string) (cs : list (list tok)) : Prop := exists c, In c cs /\ for_name n c.
Definition switched_off (r : list tok) : Prop :=
  exists d ts cs c, r = [TGroup d ts] /\ arguments cs ts /\ In c cs /\ argument_for "off" c [].
Definition on_in (n : string) (cs : list (list tok)) : Prop :=
  exists c r, In c cs /\ argument_for n c r /\ ~ switched_off r.
Definition broken (cs : list (list tok)) (x : rule) : Prop :=
  match x with
  | Given a b => given_in a cs /\ given_in b cs
  | On a b => on_in a cs /\ on_in b cs
  end.

(** What may follow a name. *)
Inductive form : Type :=
| Alone                                    (* the word *)
| Assigned                                 (* the word, or [= true], [= "true"] ... *)
| Place                                    (* the word, [(crate)], [(super)], [(in_mod = path)], [= "crate"] ... *)
| Attributes                               (* any attributes in parentheses *)
| Name                                     (* the word, or a name in parentheses *)
| OnePath                                  (* a path in parentheses *)
| TwoPaths                                 (* one or two paths in parentheses *)
| Paths                                    (* paths in parentheses *)
| Mode                                     (* one of three words in parentheses *)
| Value                                    (* the word, or a value in parentheses, maybe off *)
| Options (bare named : bool) (l : list (string * form)) (rules : list rule).
                                           (* arguments in parentheses; also the word, if
                                              [bare]; a string among them, if [named] *)

(** A string literal that stands for [t]. *)
Definition string_for (t : string) (c : list tok) : Prop :=
  exists q, c = [TLit (String """" (t ++ String q ""))].
Definition a_string (c : list tok) : Prop := exists s, c = [TLit (String """" s)].
Definition truth (c : list tok) : Prop :=
  exists t, In t ["true"; "false"] /\ (c = [TIdent t] \/ c = [TLit t] \/ string_for t c).

Inductive fits : form -> list tok -> Prop :=
| fit_alone : fits Alone []
| fit_assigned_word : fits Assigned []
| fit_assigned : forall v, truth v -> fits Assigned (TPunct "=" :: v)
| fit_place_word : fits Place []
| fit_place_in : forall d ts c, d <> DNone -> arguments [c] ts ->
    argument_for "crate" c [] \/ argument_for "super" c []
    \/ (exists v, argument_for "in_mod" c (TPunct "=" :: v) /\ (a_string v \/ any_path v)) ->
    fits Place [TGroup d ts]
| fit_place_is : forall v, string_for "crate" v \/ string_for "super" v -> fits Place (TPunct "=" :: v)
| fit_attributes : forall d ts l, d <> DNone -> loosely_listed l ts -> fits Attributes [TGroup d ts]
| fit_name_word : fits Name []
| fit_name : forall d s, d <> DNone -> ident_name s -> fits Name [TGroup d [TIdent s]]
| fit_path : forall d ts, d <> DNone -> any_path ts -> fits OnePath [TGroup d ts]
| fit_two : forall d ts cs, d <> DNone -> arguments cs ts -> Forall any_path cs ->
    1 <= List.length cs <= 2 -> fits TwoPaths [TGroup d ts]
| fit_paths : forall d ts cs, d <> DNone -> arguments cs ts -> Forall any_path cs -> fits Paths [TGroup d ts]
| fit_mode : forall d s, d <> DNone -> In s ["sync"; "async"; "plain"] -> fits Mode [TGroup d [TIdent s]]
| fit_value_word : fits Value []
| fit_value_none : forall d, d <> DNone -> fits Value [TGroup d []]
| fit_value : forall d ts x s, d <> DNone -> arguments [x] ts -> value_form x s -> fits Value [TGroup d ts]
| fit_value_off : forall d ts x s, d <> DNone -> arguments [[TIdent "off"]; x] ts -> value_form x s ->
    fits Value [TGroup d ts]
| fit_options_word : forall named l rules, fits (Options true named l rules) []
| fit_options : forall bare named l rules d ts cs, d <> DNone -> arguments cs ts ->
    (forall c, In c cs -> (named = true /\ a_string c)
                          \/ exists n fm r, In (n, fm) l /\ argument_for n c r /\ fits fm r) ->
    ~ twice a_string cs -> (forall n, ~ twice (for_name n) cs) -> (forall x, In x rules -> ~ broken cs x) ->
    fits (Options bare named l rules) [TGroup d ts].
(** An argument of a table; arguments that agree with a table and with its rules. *)
Definition row_of (l : list (string * form)) (c : list tok) : Prop :=
  exists n fm r, In (n, fm) l /\ argument_for n c r /\ fits fm r.
Definition grammatical (l : list (string * form)) (rules : list rule) (cs : list (list tok)) : Prop :=
  Forall (row_of l) cs /\ (forall n, ~ twice (for_name n) cs) /\ (forall x, In x rules -> ~ broken cs x).

(** ** The tables *)
Definition Switch : form := Options true false [("off", Alone)] [].
Definition Text : form := Options false true [("off", Alone)] [].
Definition helper_table : list (string * form) :=
  [("name", Text); ("off", Alone); ("attributes_fn", Attributes); ("public", Place); ("private", Switch)].
Definition helper_rules : list rule := [Given "public" "private"].
Definition Helper : form := Options true true helper_table helper_rules.
Definition Getter : form :=
  Options true true (helper_table ++ [("clone", Alone); ("copy", Alone); ("as_ref", Alone)])
    (helper_rules ++ [Given "clone" "copy"; Given "clone" "as_ref"; Given "copy" "as_ref"]).
Definition Setter : form := Options true true (helper_table ++ [("into", Assigned)]) helper_rules.
Definition builder_table : list (string * form) :=
  [("attributes", Attributes); ("attributes_impl", Attributes); ("into", Switch); ("required", Switch)].
Definition FieldBuilder : form := Options true true (helper_table ++ builder_table) helper_rules.
Definition StructBuilder : form :=
  Options true true
    (helper_table ++ builder_table ++ [("opt_in", Switch); ("post_build", Name); ("error", TwoPaths)]) helper_rules.
Definition Fallible : form := Options true false [("off", Alone); ("error", OnePath)] [].
Definition Serde : form :=
  Options true true
    [("off", Alone); ("public", Place); ("private", Switch); ("attributes", Attributes);
     ("serialize", Switch); ("deserialize", Switch); ("forward_attrs", Paths); ("default", Value);
     ("shadow_name", Text)]
    [On "public" "private"].
(** At both levels. *)
Definition common_table : list (string * form) :=
  [("mode", Mode); ("sync", Switch); ("r#async", Switch); ("fallible", Fallible); ("lazy", Helper);
   ("get", Getter); ("get_mut", Helper); ("set", Setter); ("reader", Helper); ("writer", Helper);
   ("clearer", Helper); ("predicate", Helper); ("optional", Switch); ("public", Place);
   ("private", Switch); ("clone", Switch); ("copy", Switch); ("lock", Switch); ("inner_mut", Switch);
   ("into", Switch); ("serde", Serde)].
Definition struct_table : list (string * form) :=
  common_table ++ [("builder", StructBuilder); ("no_new", Switch); ("default", Switch); ("rc", Helper);
                   ("attributes", Attributes); ("attributes_impl", Attributes)].
Definition field_table : list (string * form) :=
  common_table ++ [("builder", FieldBuilder); ("skip", Alone); ("attributes_fn", Attributes); ("rename", Text);
                   ("default", Value)].
Definition common_rules : list rule :=
  [On "public" "private"; On "copy" "clone"; On "sync" "inner_mut"; On "sync" "mode"; On "r#async" "inner_mut";
   On "r#async" "mode"; On "inner_mut" "mode"; On "lazy" "optional"; On "lazy" "inner_mut"].
Definition struct_rules : list rule := common_rules ++ [On "serde" "rc"].
Definition field_rules : list rule :=
  common_rules ++ [On "sync" "r#async"; On "fallible" "lock"; On "fallible" "optional"; On "fallible" "inner_mut"].
(** The features that arguments need. *)
Definition featured (ft : features) (cs : list (list tok)) : Prop :=
  (on_in "sync" cs -> ft_sync ft = true) /\ (on_in "r#async" cs -> ft_async ft = true) /\
  (on_in "serde" cs -> ft_serde ft = true).
(** The arguments that make a method or function. *)
Definition struct_helpers : list (string * (sargs -> option helper)) :=
  [("lazy", s_lazy); ("get", fun s => option_map a_base (s_accessor s)); ("get_mut", s_accessor_mut);
   ("set", fun s => option_map st_base (s_setter s)); ("reader", s_reader); ("writer", s_writer);
   ("clearer", s_clearer); ("predicate", s_predicate); ("builder", fun s => option_map b_base (s_builder s));
   ("rc", s_rc)].
Definition field_helpers : list (string * (field -> option helper)) :=
  [("lazy", f_lazy); ("get", fun f => option_map a_base (f_accessor f)); ("get_mut", f_accessor_mut);
   ("set", fun f => option_map st_base (f_setter f)); ("reader", f_reader); ("writer", f_writer);
   ("clearer", f_clearer); ("predicate", f_predicate); ("builder", fun f => option_map b_base (f_builder f))].
(** What an argument says agrees with how it is written. *)
Definition says (n : string) (cs : list (list tok)) (o : option bool) : Prop :=
  (o = None <-> ~ given_in n cs) /\ (o = Some true <-> on_in n cs) /\
  (o = Some false <-> given_in n cs /\ ~ on_in n cs).
