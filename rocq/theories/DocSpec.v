(** From the words written in the attributes to the documents that a struct is written to and read
    from (SerdeSpec.v). *)
From Coq Require Import List Bool String.
From Verif Require Import ProxyTypes ArgsModel TokenSpec ParseInput ParseSpec GrammarSpec WrittenSpec SignSpec MadeSpec SerdeSpec BehaveSpec.
Import ListNotations.
Open Scope string_scope.
Open Scope list_scope.

(** [serde(default)], with or without a value, and not off; [s]: the value is in quotes. *)
Definition serde_says (cs : list (list tok)) (v : option string) (s : bool) : Prop :=
  exists bs c, inside "serde" cs bs /\ In c bs /\ default_form (mk_defarg false v s) c.
Definition silent (cs : list (list tok)) : Prop := forall v s, ~ serde_says cs v s.

Section Document.
  (** Default of the type; the values of expressions; of functions named in quotes; of the fields
      of the value that the struct gives as default; what builders give at the n-th call. *)
  Variables (dflt : nat) (user : string -> nat) (named given : string -> option nat) (bld : string -> nat -> outcome nat nat).

  (** Default of the type of the field. *)
  Inductive empty_as (ss : list (list tok)) (x : source) : option nat -> Prop :=
  | ea_none : lazily ss x \/ optionally ss x -> empty_as ss x None
  | ea_some : ~ lazily ss x -> ~ optionally ss x -> empty_as ss x (Some dflt).
  (** What is used if the key is missing, as far as serde is told: by the field, else by the
      struct. *)
  Inductive for_missing (ss : list (list tok)) (i : string) (x : source) : option (option nat) -> Prop :=
  | fm_type : forall s o, serde_says (so_args x) None s -> empty_as ss x o -> for_missing ss i x (Some o)
  | fm_function : forall t, serde_says (so_args x) (Some t) true -> for_missing ss i x (Some (named t))
  | fm_value : forall t, serde_says (so_args x) (Some t) false -> for_missing ss i x (Some (Some (user t)))
  | fm_struct : forall s o, silent (so_args x) -> serde_says ss None s -> starts_as dflt user ss x o -> for_missing ss i x (Some o)
  | fm_struct_value : forall t s, silent (so_args x) -> serde_says ss (Some t) s -> for_missing ss i x (Some (given i))
  | fm_nothing : silent (so_args x) -> silent ss -> for_missing ss i x None.

  (** A field in documents. *)
  Record place := mk_place {
    pl_key : string;
    pl_out : bool;
    pl_in : bool;
    pl_facts : facts;
    pl_default : option nat;
    pl_missing : option (option nat);
    pl_built : outcome nat nat
  }.
  Definition place_told (ss : list (list tok)) (all : list source) (i : string) (x : source) (p : place) : Prop :=
    or_usual (fun t => renamed t (so_args x)) i (pl_key p) /\ told (pl_out p) (written_out ss x) /\ told (pl_in p) (read_in ss x) /\
    facts_told ss all x (pl_facts p) /\ starts_as dflt user ss x (pl_default p) /\ for_missing ss i x (pl_missing p) /\ pl_built p = bld i 0.
  (** One place for each field, in order. *)
  Definition places_told (ss : list (list tok)) (all : list source) (is : list string) (ps : list place) : Prop :=
    Forall2 (fun q p => place_told ss all (fst q) (snd q) p) (combine is all) ps.
End Document.

Definition slot_at (p : place) : slot :=
  mk_slot (pl_key p) (pl_out p) (pl_in p) (q_lazy (pl_facts p)) (q_lazy (pl_facts p) || q_optional (pl_facts p)) (pl_default p) (pl_missing p) (pl_built p).
(** The builder is run: not if it is async. *)
Definition is_run (p : place) (k : option nat) : bool :=
  pl_out p && q_lazy (pl_facts p) && negb (q_sync (pl_facts p) && q_async (pl_facts p)) && match k with None => true | Some _ => false end.
Definition run_panics (p : place) (k : option nat) : bool :=
  is_run p k && match pl_built p with BOk _ => false | BErr _ => negb (q_fallible (pl_facts p)) | BPanic => true end.
Definition goes_out (p : place) (k : option nat) : option nat :=
  if is_run p k then match pl_built p with BOk n => Some n | _ => None end else k.
(** A plain field that would be empty takes its default. *)
Definition comes_in (p : place) (k : option nat) : option nat :=
  match k with None => if pl_in p && negb (q_sync (pl_facts p)) then pl_default p else None | Some n => Some n end.
Definition goes_round (p : place) (k : option nat) : option nat :=
  if pl_out p && pl_in p then comes_in p (goes_out p k) else pl_default p.
(** What is written, and how often the builders of the lazy fields run. *)
Definition doc_out (l : list (place * option nat)) : document :=
  map (fun p => (pl_key (fst p), goes_out (fst p) (snd p))) (filter (fun p => pl_out (fst p)) l).
Definition runs_out (l : list (place * option nat)) : list nat :=
  map (fun p => if is_run (fst p) (snd p) then 1 else 0) (filter (fun p => pl_out (fst p) && q_lazy (pl_facts (fst p))) l).
