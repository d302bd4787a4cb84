(** When the functions generated for a struct have names of their own, without the model:
    texts only. *)
From Coq Require Import List Bool String Ascii.
From Verif Require Import ArgsModel CtxModel ArgsSpec MacroSpec.
Import ListNotations.
Open Scope string_scope.

(** The names promised for the methods in the struct's impl, by kind. *)
Definition helper_prefix (k : hkind) : string :=
  match k with
  | KAccessor | KAccessorMut | KBuilder => ""
  | KClearer => "clear_" | KLazy => "build_" | KPredicate => "has_"
  | KReader => "read_" | KSetter => "set_" | KWriter => "write_"
  end.
(** The mutable accessor of [s] meets a method with a prefix made for [t]. *)
Definition mut_meets (s : string) (k : hkind) (t : string) : Prop :=
  helper_prefix k <> ""
  /\ ((exists r, s = helper_prefix k ++ r /\ t = r ++ "_mut")
      \/ (s ++ "_" = helper_prefix k /\ t = "mut")).

Definition begins (p s : string) : Prop := exists r, s = p ++ r.
Definition ends (p s : string) : Prop := exists r, s = r ++ p.
Definition capital (a : ascii) : Prop := In a (list_ascii_of_string "ABCDEFGHIJKLMNOPQRSTUVWXYZ").
(** Names of types: a capital first. *)
Definition capitalised (s : string) : Prop := exists a r, s = String a r /\ capital a.
(** A name for a field that cannot be mistaken for a generated one. *)
Record quiet (s : string) : Prop := {
  q_prefix : forall p, In p ["clear_"; "build_"; "has_"; "read_"; "set_"; "write_"; "__"] -> ~ begins p s;
  q_suffix : ~ ends "_mut" s;
  q_alone : ~ In s ["mut"; "new"; "builder"; "_"];
  q_lower : ~ capitalised s }.

(** The names taken by the reference to oneself. *)
Definition own_names (c : sctx) (ns : list string) : Prop :=
  (s_is_ref_counted (c_args c) = true /\ exists h n, s_rc (c_args c) = Some h /\ ns = [n; n ++ "_downgrade"]
     /\ (given_string (h_name h) n \/ (forall m, ~ given_string (h_name h) m) /\ n = "myself"))
  \/ (s_is_ref_counted (c_args c) = false /\ ns = []).

(** A struct without names of its own for its helpers, whose fields have different and
    quiet names, and whose type (and shadow type) is called like a type. *)
Record calm (c : sctx) (ss : list string) : Prop := {
  ca_stems : Forall2 stem (c_input_fields c) ss;
  ca_unnamed : forall f k, In f (c_input_fields c) -> unnamed c f k;
  ca_apart : forall ns, own_names c ns -> NoDup (ns ++ ss) /\ (forall s, In s (ns ++ ss) -> quiet s);
  ca_type : capitalised (c_ident c);
  ca_shadow : forall w n, s_serde (c_args c) = Some w -> given_string (se_shadow_name w) n -> capitalised n }.
