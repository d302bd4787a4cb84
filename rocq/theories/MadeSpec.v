(** What the words written in [#[fxstruct(...)]] and [#[fieldx(...)]] say about what is made for
    the struct as a whole: Default, the constructor, what build() demands, the reference to
    itself, and what goes through serde.  From the tokens, like WrittenSpec.v and SignSpec.v. *)
From Coq Require Import List Bool String.
From Verif Require Import ArgsModel TokenSpec ParseInput ParseSpec GrammarSpec RustAst WrittenSpec SignSpec.
Import ListNotations.
Open Scope string_scope.
Open Scope list_scope.

(** ** Default *)
(** Is the struct, as a whole, for threads? *)
Definition rather_sync (ss : list (list tok)) (all : list source) : Prop :=
  decide (struct_sync_words ss ++ map (fun y => jointly (sync_words y)) all) False.
(** [default] with or without a value, but not [default(off, value)].  [default(off)] alone gives
    the value [off]. *)
Definition defaulted (x : source) : Prop :=
  given_in "default" (so_args x) /\
  ~ exists c d g v, In c (so_args x) /\ argument_for "default" c [TGroup d g] /\ arguments [[TIdent "off"]; v] g.
Definition lazy_there (x : source) : Prop :=
  ~ skipped x /\ fst (field_word "lazy" x) /\ snd (field_word "lazy" x).
(** The struct decides; else there is one unless [no_new] is on, no field has a default, and no
    field says [lazy] in a struct for threads. *)
Definition with_default (ss : list (list tok)) (all : list source) : Prop :=
  decide [word "default" ss]
    (~ on_in "no_new" ss \/ (exists y, In y all /\ (defaulted y \/ (rather_sync ss all /\ lazy_there y)))).
(** The constructor is [new] unless [no_new] is on. *)
Inductive constructor (ss : list (list tok)) (all : list source) : option string -> Prop :=
| no_constructor : ~ with_default ss all -> constructor ss all None
| public_constructor : with_default ss all -> ~ on_in "no_new" ss -> constructor ss all (Some "new")
| hidden_constructor : with_default ss all -> on_in "no_new" ss -> constructor ss all (Some "__fieldx_new").

(** ** What build() demands *)
(** A field that must be set: [builder(required)] at the field or the struct; else one that takes
    part in the builder and has nothing to fall back to. *)
Definition demanded (ss : list (list tok)) (x : source) : Prop :=
  ~ skipped x /\
  (decide [within "builder" (word "required") (so_args x); within "builder" (word "required") ss] False \/
   (decide [word "builder" (so_args x)] (on_in "builder" ss /\ ~ opt_in ss) /\
    ~ lazily ss x /\ ~ optionally ss x /\ ~ defaulted x)).

(** ** The reference to itself *)
Definition counted_name (ss : list (list tok)) : string -> Prop := or_usual (fun t => named "rc" t ss) "myself".

(** ** Serde *)
Definition negated (v : vote) : vote := (fst v, ~ snd v).
(** One direction: its own word inside of [serde], else the opposite of the other word. *)
Definition direction (w o : string) (cs : list (list tok)) : list vote :=
  [ within "serde" (word w) cs; negated (within "serde" (word o) cs) ].
(** Both directions are named and off. *)
Definition shut (cs : list (list tok)) : Prop :=
  decide [negated (within "serde" (word "serialize") cs)] False /\ decide [negated (within "serde" (word "deserialize") cs)] False.
Definition with_serde (ss : list (list tok)) : Prop := on_in "serde" ss /\ ~ shut ss.
Definition writes (ss : list (list tok)) : Prop := with_serde ss /\ decide (direction "serialize" "deserialize" ss) True.
Definition reads (ss : list (list tok)) : Prop := with_serde ss /\ decide (direction "deserialize" "serialize" ss) True.
(** A field takes part unless it is skipped, says [serde(off)], or has both directions off. *)
Definition takes_part (ss : list (list tok)) (x : source) : Prop :=
  with_serde ss /\ ~ skipped x /\ ~ (given_in "serde" (so_args x) /\ ~ on_in "serde" (so_args x)) /\ ~ shut (so_args x).
Definition written_out (ss : list (list tok)) (x : source) : Prop :=
  takes_part ss x /\ decide (direction "serialize" "deserialize" (so_args x)) True.
Definition read_in (ss : list (list tok)) (x : source) : Prop :=
  takes_part ss x /\ decide (direction "deserialize" "serialize" (so_args x)) True.
(** The type in the shadow. *)
Inductive shadow_as (ss : list (list tok)) (x : source) : ty -> Prop :=
| shadow_opt : optionally ss x \/ lazily ss x -> shadow_as ss x (TOpt TT)
| shadow_bare : ~ optionally ss x -> ~ lazily ss x -> shadow_as ss x TT.
(** [serde("t")] or [serde(shadow_name("t"))]. *)
Definition shadow_in (t : string) (r : list tok) : Prop :=
  exists d ts bs, r = [TGroup d ts] /\ arguments bs ts /\
    ((exists b, In b bs /\ text_is t b) \/
     (forall b, In b bs -> ~ a_string b) /\ exists b q, In b bs /\ argument_for "shadow_name" b q /\ text_in t q).
Definition shadow_called (ss : list (list tok)) (i : string) : string -> Prop :=
  or_usual (fun t => exists c r, In c ss /\ argument_for "serde" c r /\ shadow_in t r) ("__" ++ i ++ "Shadow")%string.
(** Its visibility; nothing is inherited from the struct. *)
Definition shadow_visible (ss : list (list tok)) : string -> Prop := first_told [shown_in "serde" ss] (eq "").
