(** Identifiers made by the macros: codegen/codegen_trait.rs (helper_name), ctx/field.rs
    (helper_base_name, default_fn_ident), ctx/codegen.rs (builder_ident, shadow_ident,
    unique_ident_pfx, myself_names), sync/impl_async.rs (lazy_wrapper_name), all in
    fieldx_derive/src.

    The crates proc_macro2 and quote are not in /repo; from their documentation:
    Ident::new panics unless it is given an identifier or a keyword, Ident::new_raw also
    for the words that cannot be raw, format_ident! drops the [r#] of an identifier given
    as an argument (not that of a string) and makes a raw identifier when its result
    starts with [r#].  An identifier is the text that Display prints for it.
    Simplification: a byte above 127 counts as a letter. *)
From Coq Require Import List Bool String Ascii Arith.
From Verif Require Import ArgsModel CtxModel RustAst TokenModel.
Import ListNotations.
Open Scope string_scope.

(** What Ident::new accepts at the start and later on (used by fields.rs:198). *)
Definition byte_in (lo hi : nat) (a : ascii) : bool :=
  let n := nat_of_ascii a in Nat.leb lo n && Nat.leb n hi.
Definition ident_start (a : ascii) : bool :=
  byte_in 65 90 a || byte_in 97 122 a || Nat.eqb (nat_of_ascii a) 95 || byte_in 128 255 a.
Definition ident_char (a : ascii) : bool := ident_start a || byte_in 48 57 a.
(** The same for a whole text. *)
Fixpoint ident_chars (s : string) : bool :=
  match s with
  | EmptyString => true
  | String a r => ident_char a && ident_chars r
  end.
Definition ident_text (s : string) : bool :=
  match s with
  | EmptyString => false
  | String a r => ident_start a && ident_chars r
  end.

(** proc_macro2::Ident::new, as in fields.rs:198. *)
Definition ident_new (s : string) : gres string :=
  if ident_text s then GOk s else GPanic "not a valid Ident".
(** proc_macro2::Ident::new_raw, used by format_ident! (codegen_trait.rs:112). *)
Definition ident_new_raw (s : string) : gres string :=
  if ident_text s && negb (existsb (String.eqb s) ["_"; "super"; "self"; "Self"; "crate"])
  then GOk ("r#" ++ s) else GPanic "cannot be a raw identifier".
(** The text after [r#], if it starts that way (format_ident!, codegen_trait.rs:112). *)
Definition raw_part (s : string) : option string :=
  match s with
  | String a (String b r) => if Ascii.eqb a "r" && Ascii.eqb b "#" then Some r else None
  | _ => None
  end.
(** quote::format_ident!: the identifier made of the formatted text
    (codegen_trait.rs:112, 138-144). *)
Definition format_ident (s : string) : gres string :=
  match raw_part s with
  | Some r => ident_new_raw r
  | None => ident_new s
  end.
(** An identifier as an argument of format_ident! (quote::IdentFragment), as in
    codegen_trait.rs:141, ctx/codegen.rs:85, impl_async.rs:15. *)
Definition fragment (i : string) : string := unwrap_or (raw_part i) i.

(** fields.rs:196-203 (base_name) and ctx/field.rs:381-388 (helper_base_name). *)
Definition base_ident (f : field) : gres string :=
  match f_base_name_of f with
  | Some n => ident_new n
  | None => GOk (f_ident f)
  end.
(** codegen_trait.rs:102-145 (helper_name). *)
Definition helper_ident (c : sctx) (f : field) (k : hkind) : gres string :=
  let composed :=
    do base <- base_ident f;
    format_ident (unwrap_or (or_else (obind (s_get_helper (c_args c) k) helper_name_of) (default_prefix k)) ""
                  ++ fragment base ++ unwrap_or (default_suffix k) "") in
  match obind (f_get_helper f k) helper_name_of with
  | Some n => if String.eqb n "" then composed else format_ident n
  | None => composed
  end.
(** sync/impl_async.rs:12-16 (lazy_wrapper_name). *)
Definition lazy_wrapper_ident (c : sctx) (f : field) : gres string :=
  do i <- helper_ident c f KLazy;
  format_ident ("__fx_async_wrap_for_" ++ fragment i).

(** ctx/codegen.rs:82-89 (builder_ident). *)
Definition builder_ident (c : sctx) : gres string := format_ident (fragment (c_ident c) ++ "Builder").
(** ctx/codegen.rs:279-286 (shadow_ident), serde_helper.rs:116-118 (shadow_name). *)
Definition shadow_name_of (c : sctx) : option string :=
  match s_serde (c_args c) with
  | Some w => obind (se_shadow_name w) strarg_value
  | None => None
  end.
Definition shadow_ident_of (c : sctx) : gres string :=
  match shadow_name_of c with
  | Some n => format_ident n
  | None => format_ident ("__" ++ fragment (c_ident c) ++ "Shadow")
  end.
(** ctx/codegen.rs:425-433 (myself_names). *)
Definition myself_idents (c : sctx) : gres (option (string * string)) :=
  match myself_name c with
  | Some n => do a <- format_ident n; do b <- format_ident (n ++ "_downgrade"); GOk (Some (a, b))
  | None => GOk None
  end.
(** ctx/codegen.rs:420-423 (myself_field): the name is an identifier by now. *)
Definition myself_field_ident (c : sctx) : gres (option string) :=
  do o <- myself_idents c;
  match o with
  | Some (a, _) => do i <- format_ident ("__weak_" ++ fragment a); GOk (Some i)
  | None => GOk None
  end.
(** ctx/codegen.rs:374-378 (unique_ident_pfx) after [n] earlier calls. *)
Definition unique_ident_of (n : nat) (prefix : string) : gres string :=
  format_ident (snd (unique_ident_pfx n prefix)).
(** ctx/field.rs:364-379 (default_fn_ident): format! prints the [r#] of an identifier. *)
Definition default_fn_ident (c : sctx) (f : field) (n : nat) : gres string :=
  unique_ident_of n (pfx_field_default (c_ident c) (f_ident f)).
(** codegen/serde.rs:514-516: the function for the whole shadow struct. *)
Definition shadow_default_fn_ident (c : sctx) (n : nat) : gres string :=
  do s <- shadow_ident_of c;
  unique_ident_of n (pfx_shadow_default s).
