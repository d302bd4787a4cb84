(** Helpers working on tokens: fixup_self_type (codegen/codegen_trait.rs), the
    attributes(...) argument (fieldx_aux/src/attributes.rs), the order of attributes and
    the internal identifiers (ctx/codegen.rs).  Spans are not modelled. *)
From Coq Require DecimalString.
From Coq Require Import List Bool String.
From Verif Require Import ArgsModel RustAst TokenSpec.
Import ListNotations.
Open Scope string_scope.
Open Scope list_scope.

(** ** fixup_self_type *)
(** syn::Generics: one parameter with its bounds and default as tokens; for a const
    parameter [gp_bound] is its type.  Lifetimes come first, as Rust demands. *)
Inductive gkind := GLifetime | GType | GConst.
Record gparam := mk_gparam {
  gp_kind : gkind; gp_name : string; gp_bound : list tok; gp_default : list tok }.
Record struct_decl := mk_struct_decl { sd_name : string; sd_generics : list gparam }.

(** The name of a parameter; a lifetime is a quote and an identifier. *)
Definition gp_name_toks (p : gparam) : list tok :=
  match gp_kind p with
  | GLifetime => [TPunct "'"; TIdent (gp_name p)]
  | _ => [TIdent (gp_name p)]
  end.
(** ToTokens for syn::GenericParam: declaration with bounds and default. *)
Definition gp_decl_toks (p : gparam) : list tok :=
  (match gp_kind p with GConst => [TIdent "const"] | _ => [] end)
  ++ gp_name_toks p
  ++ (match gp_bound p with [] => [] | b => TPunct ":" :: b end)
  ++ (match gp_default p with [] => [] | d => TPunct "=" :: d end).
Fixpoint comma_join (l : list (list tok)) : list tok :=
  match l with
  | [] => []
  | [x] => x
  | x :: r => x ++ TPunct "," :: comma_join r
  end.
(** ToTokens for syn::Generics ([#generics], codegen_trait.rs:491). *)
Definition generics_toks (gs : list gparam) : list tok :=
  match gs with
  | [] => []
  | _ => TPunct "<" :: comma_join (map gp_decl_toks gs) ++ [TPunct ">"]
  end.
(** codegen_trait.rs:491: [<#struct_ident #generics>]. *)
Definition self_type (s : struct_decl) : list tok :=
  TPunct "<" :: TIdent (sd_name s) :: generics_toks (sd_generics s) ++ [TPunct ">"].
(** codegen_trait.rs:487-504: one token of the stream. *)
Fixpoint fixup_tok (rep : list tok) (t : tok) : list tok :=
  match t with
  | TIdent s => if String.eqb s "Self" then rep else [t]
  | TGroup d l => [TGroup d (flat_map (fixup_tok rep) l)]
  | _ => [t]
  end.
(** codegen_trait.rs:480-507 (fixup_self_type). *)
Definition fixup_self_type (s : struct_decl) (ts : list tok) : list tok :=
  flat_map (fixup_tok (self_type s)) ts.

(** The user's default expressions inside an emitted expression, each with the flag
    telling whether it went through fixup_self_type ([EUser], CommonGen.default_expr,
    codegen_trait.rs:331-355). *)
Fixpoint user_parts (e : expr) : list (string * bool) :=
  match e with
  | EUser t b => [(t, b)]
  | EVar _ | EFld _ | EC0 _ => []
  | EM0 e _ | EC1 _ e | ERef e | EMut e | EDeref e | ETry e | EAwait e | EFn0 e | EFn1 _ e =>
      user_parts e
  | EM1 a _ b | EC2 _ a b | ELet _ _ a b | ESeq a b | EAssign _ a b => user_parts a ++ user_parts b
  | EM2 a _ b c | EIf a b c | EIfSome _ a b c => user_parts a ++ user_parts b ++ user_parts c
  end.
(** Its tokens as emitted; [lex] gives the tokens of the user's text. *)
Definition user_toks (lex : string -> list tok) (s : struct_decl) (u : string * bool) : list tok :=
  if snd u then fixup_self_type s (lex (fst u)) else lex (fst u).

(** ** attributes(...) *)
(** fieldx_aux/src/attributes.rs:31-39: the fold over the tokens.  The accumulator is the
    reversed list of finished chunks and the chunk under construction. *)
Definition chunk_step (acc : list (list tok) * list tok) (t : tok) : list (list tok) * list tok :=
  match t with
  | TPunct _ => (fst acc ++ [snd acc], [])
  | _ => (fst acc, snd acc ++ [t])
  end.
Definition chunks (ts : list tok) : list (list tok) :=
  let acc := fold_left chunk_step ts ([], []) in fst acc ++ [snd acc].
(** attributes.rs:42-46: an empty last chunk is dropped. *)
Definition drop_empty_last (l : list (list tok)) : list (list tok) :=
  match rev l with
  | [] :: r => rev r
  | _ => l
  end.
(** syn::Attribute as parsed from [#[ tokens ]] (attributes.rs:53): a path, then nothing,
    one delimited group, or [=] and an expression (kept as one or more tokens). *)
Definition is_sep (a b : string) : bool := String.eqb a ":" && String.eqb b ":".
Fixpoint parse_tail (ts : list tok) : bool :=
  match ts with
  | [] => true
  | [TGroup d _] => match d with DNone => false | _ => true end
  | TPunct p :: TPunct q :: TIdent _ :: r => is_sep p q && parse_tail r || String.eqb p "="
  | TPunct p :: _ :: _ => String.eqb p "="
  | _ => false
  end.
Definition parses (ts : list tok) : bool :=
  match ts with
  | TIdent _ :: r => parse_tail r
  | TPunct p :: TPunct q :: TIdent _ :: r => is_sep p q && parse_tail r
  | _ => false
  end.
(** syn::Meta as darling hands it over. *)
Inductive meta := MetaPath | MetaNameValue | MetaList (ts : list tok).
(** attributes.rs:26-60 (from_meta): parse_quote and unimplemented! both panic inside the
    macro. *)
Inductive ares := AOk (l : list (list tok)) | APanics.
Definition from_meta (m : meta) : ares :=
  match m with
  | MetaList ts =>
      let l := drop_empty_last (chunks ts) in
      if forallb parses l then AOk l else APanics
  | _ => APanics
  end.

(** ** Order of attributes *)
(** syn: [attr.path().is_ident("derive")]: exactly one segment, no leading colons. *)
Definition path_is_derive (a : list tok) : bool :=
  match a with
  | TIdent s :: TPunct p :: TPunct q :: _ => String.eqb s "derive" && negb (is_sep p q)
  | TIdent s :: _ => String.eqb s "derive"
  | _ => false
  end.
(** ctx/codegen.rs:332-342: the comparison. *)
Definition attr_cmp (a b : list tok) : comparison :=
  if path_is_derive a && negb (path_is_derive b) then Lt
  else if negb (path_is_derive a) && path_is_derive b then Gt
  else Eq.
(** slice::sort_by of the standard library, as a stable insertion sort: an element goes in
    front of the first one that is not smaller. *)
Section SortBy.
Context {A : Type} (cmp : A -> A -> comparison).
Fixpoint insert_by (x : A) (l : list A) : list A :=
  match l with
  | [] => [x]
  | y :: r => match cmp y x with
              | Lt => y :: insert_by x r
              | _ => x :: l
              end
  end.
Definition sort_by (l : list A) : list A := fold_right insert_by [] l.
End SortBy.
(** ctx/codegen.rs:324-344 (all_attrs): attributes added by the macro, then the user's. *)
Definition all_attrs (extra given : list (list tok)) : list (list tok) :=
  sort_by attr_cmp (extra ++ given).

(** ** Internal identifiers *)
(** [{}] of a number. *)
Definition decimal (n : nat) : string := DecimalString.NilEmpty.string_of_uint (Nat.to_uint n).
(** ctx/codegen.rs:374-378 (unique_ident_pfx): the new counter and the identifier.  The
    counter is a u32 in the code; here it does not overflow. *)
Definition unique_ident_pfx (unique_id : nat) (prefix : string) : nat * string :=
  let new_count := S unique_id in
  (new_count, (prefix ++ "_" ++ decimal new_count)%string).
(** A sequence of requests to one context; the counter starts at 0 (ctx/codegen.rs:46). *)
Fixpoint unique_idents (unique_id : nat) (prefixes : list string) : list string :=
  match prefixes with
  | [] => []
  | p :: r => let '(n, i) := unique_ident_pfx unique_id p in i :: unique_idents n r
  end.
(** ctx/codegen.rs:382-384 (unique_ident), ctx/field.rs:371 and codegen/serde.rs:516: the
    prefixes in use. *)
Definition pfx_unique (struct_ident : string) : string := ("__" ++ struct_ident ++ "_fxsym")%string.
Definition pfx_field_default (struct_ident field_ident : string) : string :=
  ("__" ++ struct_ident ++ "_" ++ field_ident ++ "_default")%string.
Definition pfx_shadow_default (shadow_ident : string) : string := (shadow_ident ++ "_default")%string.
