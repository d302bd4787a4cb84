(** Independent description of what the token-level helpers promise.  Tokens are those of
    proc_macro2: identifiers, punctuation characters, literals and delimited groups. *)
From Coq Require Import List Bool String.
Import ListNotations.
Open Scope string_scope.
Open Scope list_scope.

Inductive delim := DParen | DBrace | DBracket | DNone.
Inductive tok :=
| TIdent (s : string)
| TPunct (s : string)
| TLit (s : string)
| TGroup (d : delim) (l : list tok).

(** ** Self *)
(** A token tree written out flat, with its delimiters: the text a reader sees. *)
Inductive atom := AIdent (s : string) | APunct (s : string) | ALit (s : string)
                | AOpen (d : delim) | AClose (d : delim).
Fixpoint flat (t : tok) : list atom :=
  match t with
  | TIdent s => [AIdent s]
  | TPunct s => [APunct s]
  | TLit s => [ALit s]
  | TGroup d l => AOpen d :: flat_map flat l ++ [AClose d]
  end.
Definition text (l : list tok) : list atom := flat_map flat l.

(** [reads_as ty a b]: [b] is [a] with every Self written as the type [ty].  In front of
    [::] a type may also be written between angle brackets. *)
Definition path_sep (l : list atom) : Prop := exists r, l = APunct ":" :: APunct ":" :: r.
Inductive reads_as (ty : list atom) : list atom -> list atom -> Prop :=
| reads_nil : reads_as ty [] []
| reads_other : forall a l l', a <> AIdent "Self" -> reads_as ty l l' -> reads_as ty (a :: l) (a :: l')
| reads_self : forall l l', reads_as ty l l' -> reads_as ty (AIdent "Self" :: l) (ty ++ l')
| reads_path : forall l l', path_sep l -> reads_as ty l l' ->
    reads_as ty (AIdent "Self" :: l) (APunct "<" :: ty ++ APunct ">" :: l').

(** The type of a struct: its name and the names of its parameters. *)
Fixpoint commas (l : list (list atom)) : list atom :=
  match l with
  | [] => []
  | [x] => x
  | x :: r => x ++ APunct "," :: commas r
  end.
Definition type_text (name : string) (params : list (list atom)) : list atom :=
  match params with
  | [] => [AIdent name]
  | _ => AIdent name :: APunct "<" :: commas params ++ [APunct ">"]
  end.

(** ** Lists of attributes *)
(** The path of an attribute: [a], [a::b], [::a::b] ... *)
Inductive path_tail : list tok -> Prop :=
| tail_one : forall s, path_tail [TIdent s]
| tail_more : forall s p, path_tail p -> path_tail (TIdent s :: TPunct ":" :: TPunct ":" :: p).
Inductive attr_path : list tok -> Prop :=
| path_rel : forall p, path_tail p -> attr_path p
| path_abs : forall p, path_tail p -> attr_path (TPunct ":" :: TPunct ":" :: p).
(** [path], [path(...)] (or with braces or brackets), [path = literal]. *)
Inductive attribute : list tok -> Prop :=
| attr_word : forall p, attr_path p -> attribute p
| attr_list : forall p d l, attr_path p -> d <> DNone -> attribute (p ++ [TGroup d l])
| attr_value : forall p s, attr_path p -> attribute (p ++ [TPunct "="; TLit s]).

(** [listed metas ts]: [ts] is the attributes [metas] with a comma between each two and
    maybe one at the end. *)
Inductive listed : list (list tok) -> list tok -> Prop :=
| listed_none : listed [] []
| listed_last : forall a, attribute a -> listed [a] a
| listed_comma : forall a l ts, attribute a -> listed l ts -> listed (a :: l) (a ++ TPunct "," :: ts).

(** An attribute without punctuation of its own. *)
Inductive simple_attribute : list tok -> Prop :=
| simple_word : forall s, simple_attribute [TIdent s]
| simple_list : forall s d l, d <> DNone -> simple_attribute [TIdent s; TGroup d l].
(** The same as [listed], with simple attributes only and any punctuation character in
    place of each comma. *)
Inductive loosely_listed : list (list tok) -> list tok -> Prop :=
| loose_none : loosely_listed [] []
| loose_last : forall a, simple_attribute a -> loosely_listed [a] a
| loose_sep : forall a p l ts, simple_attribute a -> loosely_listed l ts ->
    loosely_listed (a :: l) (a ++ TPunct p :: ts).

(** ** Order of attributes *)
(** [derives_first derive l l']: [l'] is [l] taken apart into the derives and the rest,
    each in its order, and put together again with the derives in front. *)
Section DerivesFirst.
Context {A : Type} (derive : A -> Prop).
Inductive parted : list A -> list A -> list A -> Prop :=
| parted_nil : parted [] [] []
| parted_derive : forall x l ds os, derive x -> parted l ds os -> parted (x :: l) (x :: ds) os
| parted_other : forall x l ds os, ~ derive x -> parted l ds os -> parted (x :: l) ds (x :: os).
Definition derives_first (l l' : list A) : Prop :=
  exists ds os, parted l ds os /\ l' = ds ++ os.
End DerivesFirst.

(** #[derive(...)]: the path of the attribute is the single identifier derive. *)
Definition is_derive (a : list tok) : Prop :=
  exists rest, a = TIdent "derive" :: rest /\
    (forall r, rest <> TPunct ":" :: TPunct ":" :: r).
