(** From the words written in the attributes to what a program that uses the struct sees: the
    methods of a field are an optional cell with guards (FieldSpec.v), the builder is a form
    (BuilderSpec.v); which cell and which form is read off the tokens as in WrittenSpec.v,
    SignSpec.v and MadeSpec.v. *)
From Coq Require Import List Bool String.
From Verif Require Import ArgsModel TokenSpec ParseInput ParseSpec GrammarSpec WrittenSpec SignSpec MadeSpec CodegenSpec FieldSpec BuilderSpec.
Import ListNotations.
Open Scope string_scope.
Open Scope list_scope.

(** ** The cell *)
Definition pick_mode (s : string) : accmode :=
  if String.eqb s "copy" then AMCopy else if String.eqb s "clone" then AMClone else if String.eqb s "as_ref" then AMAsRef else AMNone.
Definition told_settings (q : facts) : settings :=
  mk_settings (q_lazy q) (q_optional q) (q_cell q) (q_locked q) (q_cloned q) (q_copied q) (pick_mode (q_pick q)) (q_fallible q) (q_async q).
Definition told_view (q : facts) : view :=
  if q_sync q then sync_view (told_settings q) else plain_view (told_settings q).
(** A method that is asked for, and does not fall under the exceptions listed in CodegenSpec.v
    (it does not compile, C38) and FieldSpec.v (it means something else, C16). *)
Definition sound_call (q : facts) (k : hkind) : bool :=
  (if q_sync q then sync_well_typed (told_settings q) k else plain_well_typed (told_settings q) k)
  && meant (q_sync q) (told_settings q) k.

(** What a call does while guards are kept ([true]: for writing): it panics in a RefCell, waits at a
    lock, or is answered. *)
Definition hands_guards (q : facts) : bool := if q_sync q then q_lazy q || q_locked q else negb (q_lazy q) && q_cell q.
Definition refusal (q : facts) (k : hkind) (gs : list bool) : option obs :=
  if q_sync q
  then if (if q_lazy q then lazy_conflicting (q_async q) k gs else conflicting k gs) then Some OWait else None
  else if conflicting k gs then Some OPanic else None.

(** A program calls methods by name. *)
Inductive nact :=
| NCall (t : string) (n : nat) (u : usage) | NPeek (i : nat) | NAssign (i : nat) (v : option nat) | NDrop (i : nat).
Inductive means (ss : list (list tok)) (all : list source) (x : source) (i : string) : nact -> act -> Prop :=
| m_call : forall k t n u, method_for ss all x k -> name_for ss x i k t -> means ss all x i (NCall t n u) (ACall k n u)
| m_peek : forall j, means ss all x i (NPeek j) (APeek j)
| m_assign : forall j v, means ss all x i (NAssign j v) (AAssign j v)
| m_drop : forall j, means ss all x i (NDrop j) (ADrop j).

(** ** The content at the beginning *)
Section Content.
  Variables (dflt : nat) (user : string -> nat).
  (** The expression given to [default]. *)
  Definition default_text (x : source) (t : string) : Prop :=
    exists c s, In c (so_args x) /\ default_form (mk_defarg false (Some t) s) c.
  Definition textless (x : source) : Prop := forall t, ~ default_text x t.
  Inductive starts_as (ss : list (list tok)) (x : source) : option nat -> Prop :=
  | st_text : forall t, default_text x t -> starts_as ss x (Some (user t))
  | st_empty : textless x -> lazily ss x \/ optionally ss x -> starts_as ss x None
  | st_type : textless x -> ~ lazily ss x -> ~ optionally ss x -> starts_as ss x (Some dflt).

  (** ** The form *)
  (** What build() falls back to if the field was not set. *)
  Inductive falls_back (ss : list (list tok)) (x : source) : option (option nat) -> Prop :=
  | fb_text : forall t, default_text x t -> falls_back ss x (Some (Some (user t)))
  | fb_empty : textless x -> lazily ss x \/ optionally ss x -> falls_back ss x (Some None)
  | fb_type : textless x -> ~ lazily ss x -> ~ optionally ss x -> defaulted x \/ ~ settable ss x ->
      falls_back ss x (Some (Some dflt))
  | fb_none : textless x -> ~ lazily ss x -> ~ optionally ss x -> ~ defaulted x -> settable ss x -> falls_back ss x None.
  Definition entry_told (ss : list (list tok)) (i : string) (x : source) (e : entry) : Prop :=
    en_name e = i /\ told (en_settable e) (settable ss x) /\ told (en_must e) (demanded ss x) /\ falls_back ss x (en_fallback e).
  (** One entry for each field that is not skipped, in order. *)
  Inductive form_told (ss : list (list tok)) : list (string * source) -> list entry -> Prop :=
  | ft_nil : form_told ss [] []
  | ft_skip : forall i x l es, skipped x -> form_told ss l es -> form_told ss ((i, x) :: l) es
  | ft_entry : forall i x l e es, ~ skipped x -> entry_told ss i x e -> form_told ss l es -> form_told ss ((i, x) :: l) (e :: es).
End Content.
