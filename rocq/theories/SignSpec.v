(** What the words written in [#[fxstruct(...)]] and [#[fieldx(...)]] say about the methods:
    who may call them, what they take and what they return.  Straight from the tokens, like
    WrittenSpec.v: nothing of the parser, of the records of arguments or of the effective
    settings is used. *)
From Coq Require Import List Bool String.
From Verif Require Import ArgsModel TokenSpec ParseInput ParseSpec GrammarSpec RustAst WrittenSpec.
Import ListNotations.
Open Scope string_scope.
Open Scope list_scope.

(** [n(bs)] among the arguments [cs]. *)
Definition inside (n : string) (cs bs : list (list tok)) : Prop :=
  exists c d ts, In c cs /\ argument_for n c [TGroup d ts] /\ arguments bs ts.
(** The vote of the arguments inside of [n]. *)
Definition within (n : string) (V : list (list tok) -> vote) (cs : list (list tok)) : vote :=
  ((exists bs, inside n cs bs /\ fst (V bs)), (exists bs, inside n cs bs /\ snd (V bs))).
(** Several places are asked in turn for an answer; the first that has any gives it. *)
Fixpoint first_told {A} (ps : list (A -> Prop)) (last : A -> Prop) (v : A) : Prop :=
  match ps with
  | [] => last v
  | P :: r => P v \/ ((forall u, ~ P u) /\ first_told r last v)
  end.

(** ** Visibility *)
(** What follows [public], and the visibility meant. *)
Inductive in_place : list tok -> string -> Prop :=
| place_all : in_place [] "pub"
| place_crate : forall d ts c, arguments [c] ts -> argument_for "crate" c [] -> in_place [TGroup d ts] "pub(crate)"
| place_super : forall d ts c, arguments [c] ts -> argument_for "super" c [] -> in_place [TGroup d ts] "pub(super)"
| place_path : forall d ts c p, arguments [c] ts -> argument_for "in_mod" c (TPunct "=" :: p) -> any_path p ->
    in_place [TGroup d ts] ("pub(in " ++ written p ++ ")")%string
| place_text : forall d ts c p t, arguments [c] ts -> argument_for "in_mod" c (TPunct "=" :: p) -> text_is t p ->
    in_place [TGroup d ts] ("pub(in " ++ t ++ ")")%string
| place_is_crate : forall v, text_is "crate" v -> in_place (TPunct "=" :: v) "pub(crate)"
| place_is_super : forall v, text_is "super" v -> in_place (TPunct "=" :: v) "pub(super)".
Inductive shown (cs : list (list tok)) : string -> Prop :=
| shown_private : on_in "private" cs -> shown cs ""
| shown_public : forall c r v, ~ on_in "private" cs -> In c cs -> argument_for "public" c r -> in_place r v -> shown cs v.
Definition shown_in (n : string) (cs : list (list tok)) (v : string) : Prop := exists bs, inside n cs bs /\ shown bs v.
(** The argument of the method at the field, the field, the argument at the struct, the struct;
    else what is written before the word [struct], which is [sv]. *)
Definition visible (ss : list (list tok)) (sv : string) (x : source) (k : hkind) : string -> Prop :=
  first_told [ shown_in (helper_word k) (so_args x); shown (so_args x); shown_in (helper_word k) ss; shown ss ] (eq sv).
(** [get_mut] of a field that is sync goes by what is said of [get]. *)
Definition ruled_by (sync : bool) (k : hkind) : hkind :=
  match k with KAccessorMut => if sync then KAccessor else KAccessorMut | _ => k end.

(** ** How the value is handed out *)
(** [get(copy)], [get(clone)] and [get(as_ref)]. *)
Definition by_getter (cs : list (list tok)) (w : string) : Prop :=
  In w ["clone"; "copy"; "as_ref"] /\ exists bs, inside "get" cs bs /\ given_in w bs.
(** [copy] and [clone]; [copy(off)] without [clone] counts as [clone] here. *)
Inductive by_word (cs : list (list tok)) : string -> Prop :=
| word_clone : on_in "clone" cs -> by_word cs "clone"
| word_copy : ~ on_in "clone" cs -> on_in "copy" cs -> by_word cs "copy"
| word_no_copy : ~ on_in "clone" cs -> given_in "copy" cs -> ~ on_in "copy" cs -> by_word cs "clone".
(** For plain fields; [""] if nothing is said. *)
Definition picked (ss : list (list tok)) (x : source) : string -> Prop :=
  first_told [by_getter (so_args x); by_word (so_args x); by_getter ss; by_word ss] (eq "").
(** For all the fields: is it [w], where [o] is the other of [copy] and [clone]? *)
Definition wants (w o : string) (cs : list (list tok)) : list vote :=
  [ ((exists u, by_getter cs u), by_getter cs w);
    (on_in o cs \/ given_in w cs, on_in w cs /\ ~ on_in o cs) ].
Definition copied (ss : list (list tok)) (x : source) : Prop :=
  decide (wants "copy" "clone" (so_args x) ++ wants "copy" "clone" ss) False.
Definition cloned (ss : list (list tok)) (x : source) : Prop :=
  decide (wants "clone" "copy" (so_args x) ++ wants "clone" "copy" ss) False.

(** ** Conversions of what is given *)
(** [into], [into = true] and [into = "true"] inside of [set]. *)
Definition affirms (r : list tok) : Prop :=
  r = [] \/ exists v, r = TPunct "=" :: v /\ (v = [TIdent "true"] \/ v = [TLit "true"] \/ string_for "true" v).
Definition assigned (n : string) (cs : list (list tok)) : vote :=
  (given_in n cs, exists c r, In c cs /\ argument_for n c r /\ affirms r).
(** The setter at the field, the field, the setter at the struct, the struct. *)
Definition converts (ss : list (list tok)) (x : source) : Prop :=
  decide [ within "set" (assigned "into") (so_args x); word "into" (so_args x);
           within "set" (assigned "into") ss; word "into" ss ] False.
(** The same for the setters of the builder. *)
Definition builder_converts (ss : list (list tok)) (x : source) : Prop :=
  decide [ within "builder" (word "into") (so_args x); word "into" (so_args x);
           within "builder" (word "into") ss; word "into" ss ] False.

(** ** Signatures *)
(** All that is told of a field and matters here. *)
Record facts : Type := mk_facts {
  q_sync : bool; q_async : bool; q_lazy : bool; q_optional : bool; q_locked : bool; q_cell : bool;
  q_fallible : bool; q_copied : bool; q_cloned : bool; q_pick : string; q_converts : bool
}.
Definition facts_told (ss : list (list tok)) (all : list source) (x : source) (q : facts) : Prop :=
  told (q_sync q) (in_sync ss all x) /\ told (q_async q) (in_async ss x) /\ told (q_lazy q) (lazily ss x) /\
  told (q_optional q) (optionally ss x) /\ told (q_locked q) (locked ss x) /\
  told (q_cell q) (asks ss x "inner_mut" False) /\ told (q_fallible q) (asks ss x "fallible" False) /\
  told (q_copied q) (copied ss x) /\ told (q_cloned q) (cloned ss x) /\ picked ss x (q_pick q) /\
  told (q_converts q) (converts ss x).

Section Signature.
  Variable q : facts.
  Definition holds : ty := if q_optional q then TOpt TT else TT.
  Definition or_error (t : ty) : ty := if q_fallible q then TRes t else t.
  Definition by_value : bool := q_copied q || q_cloned q.
  (** Without [copy], [clone] and [as_ref]. *)
  Definition unpicked : bool := String.eqb (q_pick q) "".
  Definition ref_unless (b : bool) (t : ty) : ty := if b then t else TRef t.
  Definition given_type : option ty := Some (if q_converts q then TIntoT else TT).

  (** What is kept behind a lock is reached through guards. *)
  Definition guarded : bool := q_sync q && (q_lazy q || q_locked q).
  Definition read_guard : ty :=
    if q_lazy q then or_error (if q_async q then TLockR true TT else TMapR TT) else TLockR (q_async q) holds.

  (** Is it an [async fn], what is [self], the argument, the result. *)
  Definition sig : Type := (bool * selfmode * option ty * ty)%type.
  Definition sync_sig (k : hkind) : sig :=
    match k with
    | KAccessor =>
        if by_value
        then (q_lazy q && q_async q, SRef, None, if q_lazy q then or_error TT else holds)
        else if guarded then (q_async q, SRef, None, read_guard)
        else (false, SRef, None, TRef (or_error holds))
    | KAccessorMut =>
        if q_lazy q then (q_async q, SRef, None, or_error (TMapW (q_async q) TT))
        else if q_locked q then (false, SRef, None, TLockW (q_async q) holds)
        else (false, SMut, None, TMut holds)
    | KReader => (q_async q, SRef, None, read_guard)
    | KWriter => (q_async q, SRef, None, if q_lazy q then TGuard (q_async q) (q_fallible q) else TLockW (q_async q) holds)
    | KSetter =>
        (guarded && q_async q, if guarded then SRef else SMut, given_type, if q_lazy q then TOpt TT else holds)
    | KClearer => (q_async q, SRef, None, TOpt TT)
    | KPredicate => (negb (q_lazy q) && q_locked q && q_async q, SRef, None, TBool)
    | KBuilder | KLazy => (false, SOwn, None, TSelf)
    end.
  Definition plain_sig (k : hkind) : sig :=
    match k with
    | KAccessor =>
        let inner := if String.eqb (q_pick q) "as_ref" then TRef TT else TT in
        let whole := if q_optional q then TOpt inner else inner in
        (false, SRef, None,
         if q_lazy q then or_error (ref_unless (negb unpicked) TT)
         else if q_cell q then (if by_value then whole else TCellR whole)
         else ref_unless (negb unpicked) whole)
    | KAccessorMut =>
        if q_lazy q then (false, SMut, None, or_error (TMut TT))
        else if q_cell q then (false, SRef, None, TCellW holds) else (false, SMut, None, TMut holds)
    | KSetter =>
        (false, if q_cell q && negb (q_lazy q) then SRef else SMut, given_type, if q_lazy q then TOpt TT else holds)
    | KClearer => if q_cell q then (false, SRef, None, holds) else (false, SMut, None, TOpt TT)
    | KPredicate => (false, SRef, None, TBool)
    | KReader | KWriter | KBuilder | KLazy => (false, SOwn, None, TSelf)
    end.
  Definition signature (k : hkind) : sig := if q_sync q then sync_sig k else plain_sig k.
End Signature.
