(** What the words written in [#[fxstruct(...)]] and [#[fieldx(...)]] ask for: the methods
    of a field and its type, straight from the tokens.  Nothing of the parser, of the records
    of arguments or of the effective settings is used. *)
From Coq Require Import List Bool String.
From Verif Require Import ArgsModel TokenSpec ParseInput ParseSpec GrammarSpec RustAst.
Import ListNotations.
Open Scope string_scope.
Open Scope list_scope.

(** A question put to several places in turn.  Each is asked for a vote: whether it says anything,
    and whether what it says is yes.  The first that says anything decides. *)
Definition vote := (Prop * Prop)%type.
Fixpoint decide (ps : list vote) (last : Prop) : Prop :=
  match ps with
  | [] => last
  | p :: r => (fst p /\ snd p) \/ (~ fst p /\ decide r last)
  end.
(** All of them as one. *)
Definition jointly (ps : list vote) : vote := ((exists p, In p ps /\ fst p), decide ps False).

(** The attributes of a field and their arguments. *)
Record source : Type := mk_source { so_attrs : list fattr; so_args : list (list tok) }.
Definition sourced (x : source) : Prop := gathered (so_attrs x) (so_args x).

(** [mode(m)]. *)
Definition mode_in (m : string) (cs : list (list tok)) : Prop :=
  exists c d, In c cs /\ argument_for "mode" c [TGroup d [TIdent m]].
Definition word (n : string) (cs : list (list tok)) : vote := (given_in n cs, on_in n cs).
Definition mode_is (ms : list string) (cs : list (list tok)) : vote :=
  (given_in "mode" cs, exists m, In m ms /\ mode_in m cs).

(** A bare [#[fieldx]], if [lazy] is not written elsewhere, counts as [lazy(off), clearer(off),
    predicate(off)], whatever is written about the latter two. *)
Definition bare (x : source) : Prop := In FWord (so_attrs x) /\ ~ given_in "lazy" (so_args x).
Definition bare_words : list string := ["lazy"; "clearer"; "predicate"].
Definition field_word (n : string) (x : source) : vote :=
  (given_in n (so_args x) \/ (bare x /\ In n bare_words),
   on_in n (so_args x) /\ ~ (bare x /\ In n bare_words)).
Definition skipped (x : source) : Prop := given_in "skip" (so_args x).

Section Field.
  (** The arguments of the struct, the fields of the struct, one of them. *)
  Variables (ss : list (list tok)) (all : list source) (x : source).

  (** The field decides, else the struct, else [d]. *)
  Definition asks (n : string) (d : Prop) : Prop := decide [field_word n x; word n ss] d.

  Definition lazily : Prop := ~ skipped x /\ asks "lazy" False.
  Definition optionally : Prop :=
    ~ skipped x /\ asks "optional" (~ lazily /\ (asks "clearer" False \/ asks "predicate" False)).

  (** Which of the three generators.  The field, the struct, the fields from the first to the
      last. *)
  Definition sync_words (y : source) : list vote :=
    [ word "sync" (so_args y); mode_is ["sync"] (so_args y); word "r#async" (so_args y);
      word "lock" (so_args y);
      (given_in "inner_mut" (so_args y), ~ on_in "inner_mut" (so_args y));
      (on_in "reader" (so_args y) \/ on_in "writer" (so_args y), True) ].
  Definition struct_sync_words : list vote :=
    [ word "sync" ss; mode_is ["sync"; "async"] ss; word "r#async" ss; word "lock" ss;
      word "reader" ss; word "writer" ss ].
  Definition in_sync : Prop :=
    decide (sync_words x ++ struct_sync_words ++ map (fun y => jointly (sync_words y)) all) False.
  Definition in_async : Prop :=
    decide [ word "r#async" (so_args x); mode_is ["async"] (so_args x); word "r#async" ss;
             mode_is ["async"] ss ] False.
  Definition made_for (m : syncmode) : Prop :=
    match m with
    | MPlain => ~ in_sync
    | MSync => in_sync /\ ~ in_async
    | MAsync => in_sync /\ in_async
    end.

  (** The methods. *)
  Definition method_for (k : hkind) : Prop :=
    ~ skipped x /\
    match k with
    | KAccessor => asks "get" (asks "clearer" False \/ asks "predicate" False \/ lazily \/ asks "inner_mut" False)
    | KAccessorMut => asks "get_mut" False
    | KSetter => asks "set" False
    | KClearer => asks "clearer" False
    | KReader => in_sync /\ asks "reader" False
    | KWriter => in_sync /\ asks "writer" False
    | KPredicate => asks "predicate" False /\ (in_sync \/ lazily \/ optionally)
    | KBuilder | KLazy => False
    end.

  (** The type of the field, the declared one being [TT]. *)
  Definition told (b : bool) (P : Prop) : Prop := if b then P else ~ P.
  Inductive content : ty -> Prop :=
  | content_opt : optionally -> content (TOpt TT)
  | content_bare : ~ optionally -> content TT.
  Definition locked : Prop :=
    asks "lock" (asks "reader" False \/ asks "writer" False \/ optionally).
  Inductive has_type : ty -> Prop :=
  | type_skip : in_sync -> skipped x -> has_type TT
  | type_proxy : forall a e, in_sync -> lazily -> told a in_async -> told e (asks "fallible" False) ->
      has_type (TProxy a e)
  | type_lock : forall a t, in_sync -> ~ skipped x -> ~ lazily -> locked -> told a in_async -> content t ->
      has_type (TLock a t)
  | type_free : forall t, in_sync -> ~ skipped x -> ~ lazily -> ~ locked -> content t -> has_type t
  | type_once : ~ in_sync -> lazily -> has_type (TOnce TT)
  | type_cell : forall t, ~ in_sync -> ~ lazily -> asks "inner_mut" False -> content t -> has_type (TCell t)
  | type_plain : forall t, ~ in_sync -> ~ lazily -> ~ asks "inner_mut" False -> content t -> has_type t.
End Field.

(** ** The builder *)
(** There is one if the struct asks for it, or some field does and the struct says nothing. *)
Definition with_builder (ss : list (list tok)) (all : list source) : Prop :=
  decide [word "builder" ss] (exists y, In y all /\ on_in "builder" (so_args y)).

(** ** Names *)
(** A string literal that says [t].  A lone quote, which no lexer makes, would count as an
    empty one. *)
Definition text_is (t : string) (c : list tok) : Prop := string_for t c \/ (t = "" /\ c = [TLit """"]).
(** [("t")], as in [rename("t")] and [name("t")]; [off] among the arguments takes it back. *)
Definition text_in (t : string) (r : list tok) : Prop :=
  exists d ts bs, r = [TGroup d ts] /\ arguments bs ts /\ (forall b, In b bs -> ~ argument_for "off" b []) /\
    exists b, In b bs /\ text_is t b.
(** [("t", ...)] or [(name("t"), ...)], as in [get("t")]. *)
Definition name_in (t : string) (r : list tok) : Prop :=
  exists d ts bs, r = [TGroup d ts] /\ arguments bs ts /\
    ((exists b, In b bs /\ text_is t b) \/
     (forall b, In b bs -> ~ a_string b) /\ exists b q, In b bs /\ argument_for "name" b q /\ text_in t q).
Definition named (n t : string) (cs : list (list tok)) : Prop :=
  exists c r, In c cs /\ argument_for n c r /\ name_in t r.
Definition renamed (t : string) (cs : list (list tok)) : Prop :=
  exists c r, In c cs /\ argument_for "rename" c r /\ text_in t r.

Definition helper_word (k : hkind) : string :=
  match k with
  | KAccessor => "get" | KAccessorMut => "get_mut" | KBuilder => "builder" | KClearer => "clearer"
  | KLazy => "lazy" | KPredicate => "predicate" | KReader => "reader" | KSetter => "set" | KWriter => "writer"
  end.
Definition usual_prefix (k : hkind) : string :=
  match k with
  | KAccessor | KAccessorMut | KBuilder => "" | KClearer => "clear_" | KLazy => "build_" | KPredicate => "has_"
  | KReader => "read_" | KSetter => "set_" | KWriter => "write_"
  end.
Definition usual_suffix (k : hkind) : string := match k with KAccessorMut => "_mut" | _ => "" end.

(** What [P] holds of, or [d] if there is nothing. *)
Definition or_usual (P : string -> Prop) (d t : string) : Prop := P t \/ ((forall u, ~ P u) /\ t = d).
(** The name given with the field; or the prefix, given with the struct, the name of the field
    [i], unless renamed, and the suffix. *)
Inductive name_for (ss : list (list tok)) (x : source) (i : string) (k : hkind) : string -> Prop :=
| name_own : forall t, t <> "" -> named (helper_word k) t (so_args x) -> name_for ss x i k t
| name_made : forall p b, (forall t, t <> "" -> ~ named (helper_word k) t (so_args x)) ->
    or_usual (fun p => named (helper_word k) p ss) (usual_prefix k) p ->
    or_usual (fun b => renamed b (so_args x)) i b ->
    name_for ss x i k (p ++ b ++ usual_suffix k)%string.

(** ** The setters of the builder *)
(** [builder("t")] makes one even if it also says [off]; else the field decides, else the
    struct unless it says [opt_in]. *)
Definition opt_in (ss : list (list tok)) : Prop :=
  exists c d ts bs, In c ss /\ argument_for "builder" c [TGroup d ts] /\ arguments bs ts /\ on_in "opt_in" bs.
Definition settable (ss : list (list tok)) (x : source) : Prop :=
  ~ skipped x /\
  ((exists t, named "builder" t (so_args x)) \/
   decide [word "builder" (so_args x)] (on_in "builder" ss /\ ~ opt_in ss)).
