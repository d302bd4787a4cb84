(** What the struct must look like for the macro to run to its end, which names it may
    use and when it has to complain: vocabulary of the theorems in MacroProps.v, written
    without the functions of NameModel.v and MacroModel.v. *)
From Coq Require Import List Bool String Ascii.
From Verif Require Import ArgsModel CtxModel.
Import ListNotations.
Open Scope string_scope.

(** ** Words and identifiers *)
(** Letters of a word, without digits and with them; bytes of other alphabets count as
    letters. *)
Definition letters : string := "abcdefghijklmnopqrstuvwxyzABCDEFGHIJKLMNOPQRSTUVWXYZ_".
Definition digits : string := "0123456789".
Definition letter (a : ascii) : Prop :=
  In a (list_ascii_of_string letters) \/ 128 <= nat_of_ascii a.
Definition digit (a : ascii) : Prop := In a (list_ascii_of_string digits).
(** A word: a letter, then letters and digits. *)
Definition word (s : string) : Prop :=
  exists a r, s = String a r /\ letter a
    /\ forall b, In b (list_ascii_of_string r) -> letter b \/ digit b.
(** An identifier as Rust shows it: a word, or a word behind [r#]. *)
Definition identifier (s : string) : Prop :=
  word s
  \/ exists w, s = "r#" ++ w /\ word w /\ ~ In w ["_"; "super"; "self"; "Self"; "crate"].
(** The words that cannot name anything, all editions (Rust reference, keywords). *)
Definition rust_keywords : list string :=
  ["as"; "break"; "const"; "continue"; "crate"; "else"; "enum"; "extern"; "false"; "fn"; "for";
   "if"; "impl"; "in"; "let"; "loop"; "match"; "mod"; "move"; "mut"; "pub"; "ref"; "return";
   "self"; "Self"; "static"; "struct"; "super"; "trait"; "true"; "type"; "unsafe"; "use";
   "where"; "while"; "async"; "await"; "dyn"; "abstract"; "become"; "box"; "do"; "final";
   "macro"; "override"; "priv"; "typeof"; "unsized"; "virtual"; "yield"; "try"; "gen"; "_"].
(** A name that can be written in code: an identifier that is no keyword. *)
Definition nameable (s : string) : Prop := identifier s /\ ~ In s rust_keywords.

(** ** Well-formed input *)
(** The string given to an argument, if it is in force. *)
Definition given_string (s : option strarg) (n : string) : Prop :=
  exists a, s = Some a /\ sa_off a = false /\ sa_value a = Some n.
(** A serde default with a value that is no string. *)
Definition code_default (s : option serde) : Prop :=
  exists w d v, s = Some w /\ se_default w = Some d /\ d_off d = false
             /\ d_value d = Some v /\ d_is_str d = false.
(** A serde default with a value of any kind. *)
Definition any_default (s : option serde) : Prop :=
  exists w d v, s = Some w /\ se_default w = Some d /\ d_off d = false /\ d_value d = Some v.

(** The names in the arguments of one field. *)
Record field_names_ok (f : field) : Prop := {
  fn_ident : identifier (f_ident f);
  fn_rename : forall n, given_string (f_base_name f) n -> word n;
  fn_helper : forall k h n, f_get_helper f k = Some h -> given_string (h_name h) n ->
                n = "" \/ identifier n }.
(** The names in the arguments of the struct: there they are prefixes. *)
Record struct_names_ok (c : sctx) : Prop := {
  sn_ident : identifier (c_ident c);
  sn_prefix : forall k h n, s_get_helper (c_args c) k = Some h -> given_string (h_name h) n ->
                n = "" \/ word n;
  sn_rc : forall h n, s_rc (c_args c) = Some h -> given_string (h_name h) n -> word n;
  sn_shadow : forall w n, s_serde (c_args c) = Some w -> given_string (se_shadow_name w) n ->
                identifier n }.
(** No raw identifiers where serde gets a function for a default. *)
Record no_raw_defaults (c : sctx) : Prop := {
  nr_field : forall f, In f (c_input_fields c) -> code_default (f_serde f) ->
               word (c_ident c) /\ word (f_ident f);
  nr_shadow : forall w n, s_serde (c_args c) = Some w -> any_default (Some w) ->
               given_string (se_shadow_name w) n -> word n }.
(** The word [default] alone is not given to a sync field that is lazy or optional. *)
Definition no_bare_default (c : sctx) : Prop :=
  forall f d, In f (c_input_fields c) -> f_default f = Some d -> d_off d = false -> d_value d = None ->
    is_sync c f = true -> is_lazy c f = false /\ is_optional c f = false.
Record ok_input (c : sctx) : Prop := {
  ok_struct : struct_names_ok c;
  ok_fields : forall f, In f (c_input_fields c) -> field_names_ok f;
  ok_raw : no_raw_defaults c;
  ok_default : no_bare_default c }.

(** ** Documented names *)
(** What the names of a field's helpers are built on: the name given with rename, else
    the field's without [r#]. *)
Definition stem (f : field) (s : string) : Prop :=
  given_string (f_base_name f) s
  \/ (forall n, ~ given_string (f_base_name f) n)
     /\ word s /\ (f_ident f = s \/ f_ident f = "r#" ++ s).
(** The names promised by the documentation when none is given. *)
Definition documented_name (k : hkind) (s : string) : string :=
  match k with
  | KAccessor | KBuilder => s
  | KAccessorMut => s ++ "_mut"
  | KClearer => "clear_" ++ s
  | KLazy => "build_" ++ s
  | KPredicate => "has_" ++ s
  | KReader => "read_" ++ s
  | KSetter => "set_" ++ s
  | KWriter => "write_" ++ s
  end.
(** Neither the field nor the struct names this helper; an empty name says nothing at
    the field. *)
Definition unnamed (c : sctx) (f : field) (k : hkind) : Prop :=
  (forall h n, f_get_helper f k = Some h -> given_string (h_name h) n -> n = "")
  /\ (forall h n, s_get_helper (c_args c) k = Some h -> ~ given_string (h_name h) n).

(** ** When to complain *)
(** The field is fallible and nobody said with which error. *)
Definition error_unknown (c : sctx) (f : field) : Prop :=
  is_fallible c f = true
  /\ (forall x, f_fallible f = Some x -> fl_error x = None)
  /\ (forall x, s_fallible (c_args c) = Some x -> fl_error x = None).
(** The error type would be needed: always for a sync field, for a plain one only by the
    methods that call its builder. *)
Definition error_needed (c : sctx) (f : field) : Prop :=
  is_sync c f = true
  \/ f_skip f = false /\ is_lazy c f = true /\ (needs_accessor c f = true \/ needs_accessor_mut c f = true).
Definition bad_field (c : sctx) (f : field) : Prop := error_unknown c f /\ error_needed c f.
(** The default given to serde for the struct is a string that is no path, or an
    assignment. *)
Definition bad_serde_default (path assignment : string -> bool) (c : sctx) : Prop :=
  s_is_serde (c_args c) = true /\
  exists w d v, s_serde (c_args c) = Some w /\ se_default w = Some d /\ d_off d = false
             /\ d_value d = Some v
             /\ (if d_is_str d then path v = false else assignment v = true).
(** The two complaints. *)
Definition unknown_type : string := "is marked as fallible but its error type is unknown".
Definition serde_message (c : sctx) (m : string) : Prop :=
  exists w d, s_serde (c_args c) = Some w /\ se_default w = Some d
    /\ m = if d_is_str d then "Invalid default string" else "Unexpected kind of argument".
