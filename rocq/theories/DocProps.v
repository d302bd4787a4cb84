(** C84: from the tokens of the attributes to documents. *)
From Coq Require Import List Bool String.
From Verif Require Import ProxyTypes ArgsModel CtxModel ArgsSpec TokenSpec ParseInput ParseModel ParseSpec ParseForms GrammarSpec GrammarProps
  RustAst RustTyping RustSem CommonGen StructGen CodegenSpec FieldRun SerdeSpec SerdeModel SerdeProofs SerdeFacts CodegenProps SerdeProps
  WrittenSpec WrittenProofs WrittenNames WrittenProps SignSpec SignTypes SignProps MadeSpec MadeProofs MadeSerde MadeProps BehaveSpec DocSpec DocProofs.
Import ListNotations.
Open Scope string_scope.
Open Scope list_scope.

(** The words determine the place of every field in documents. *)
Theorem C84_places : forall ft c ss all bld dflt user named given,
  struct_as ft ss (c_args c) -> Forall2 (read_as ft) all (c_input_fields c) -> with_serde ss ->
  exists ps, (forall qs, places_told dflt user named given bld ss all (map f_ident (c_input_fields c)) qs <-> qs = ps) /\
    map slot_at ps = slots bld dflt user named (fun f => given (f_ident f)) c.
Proof.
  intros ft c ss all bld dflt user named given HS HF SD. exists (map (place_of c bld dflt user named given) (all_fields c)).
  split; [intros qs; exact (w_places ft c ss all HS HF bld dflt user named given qs SD)|exact (slots_places c bld dflt user named given)].
Qed.
Print Assumptions C84_places.
(** What is written, how often builders run, and when writing panics. *)
Theorem C84_writes : forall ft c ss all bld dflt user named given alive ps ks o,
  struct_as ft ss (c_args c) -> Forall2 (read_as ft) all (c_input_fields c) -> with_serde ss ->
  into_compiles c -> NoDup (map f_ident (all_fields c)) -> stores c (all_fields c) ks o ->
  places_told dflt user named given bld ss all (map f_ident (c_input_fields c)) ps ->
  serialise bld alive dflt user c o =
    if existsb (fun p => run_panics (fst p) (snd p)) (combine ps ks) then WPanic
    else WDone (doc_out (combine ps ks)) (runs_out (combine ps ks)).
Proof.
  exact (fun ft c ss all bld dflt user named given alive ps ks o HS HF => w_serialise ft c ss all HS HF bld dflt user named given alive ps ks o).
Qed.
Print Assumptions C84_writes.
(** Which documents are refused, and what the others give. *)
Theorem C84_reads : forall ft c ss all bld dflt user named given alive ps d,
  struct_as ft ss (c_args c) -> Forall2 (read_as ft) all (c_input_fields c) -> with_serde ss ->
  from_compiles c -> NoDup (map f_ident (all_fields c)) -> defaults_make_sense named (fun f => given (f_ident f)) c ->
  places_told dflt user named given bld ss all (map f_ident (c_input_fields c)) ps ->
  match spec_reads (map slot_at ps) d with
  | None => deserialise bld alive dflt user named (fun f => given (f_ident f)) c d = RRefused
  | Some ks => exists o, deserialise bld alive dflt user named (fun f => given (f_ident f)) c d = RDone o /\
      stores c (all_fields c) (map (fun p => comes_in (fst p) (snd p)) (combine ps ks)) o
  end.
Proof.
  exact (fun ft c ss all bld dflt user named given alive ps d HS HF => w_deserialise ft c ss all HS HF bld dflt user named given alive ps d).
Qed.
Print Assumptions C84_reads.
(** What an object holds after being written and read back. *)
Theorem C84_round_trip : forall ft c ss all bld dflt user named given alive ps ks o d n,
  struct_as ft ss (c_args c) -> Forall2 (read_as ft) all (c_input_fields c) -> with_serde ss ->
  into_compiles c -> from_compiles c -> NoDup (map f_ident (all_fields c)) ->
  defaults_make_sense named (fun f => given (f_ident f)) c ->
  NoDup (map pl_key (filter (fun p => pl_out p || pl_in p) ps)) -> stores c (all_fields c) ks o ->
  places_told dflt user named given bld ss all (map f_ident (c_input_fields c)) ps ->
  serialise bld alive dflt user c o = WDone d n ->
  exists o', deserialise bld alive dflt user named (fun f => given (f_ident f)) c d = RDone o' /\
    stores c (all_fields c) (map (fun p => goes_round (fst p) (snd p)) (combine ps ks)) o'.
Proof.
  exact (fun ft c ss all bld dflt user named given alive ps ks o d n HS HF => w_round ft c ss all HS HF bld dflt user named given alive ps ks o d n).
Qed.
Print Assumptions C84_round_trip.

(** ** A case *)
(** [#[fxstruct(serde(default))]] and the fields [#[fieldx(lazy, rename("alpha"))]],
    [#[fieldx(optional, serde(default("two")))]], [#[fieldx(default(5), serde(deserialize(off)))]],
    [#[fieldx(serde(default(5)))]], [#[fieldx(sync, lazy, serde(default))]] and [#[fieldx(serde(off))]]. *)
Definition n5 : tok := TLit "5".
Definition d_struct : list tok := [ww "serde"; pp [ww "default"]].
Definition d_a : list tok := [ww "lazy"; cc; ww "rename"; pp [ss "alpha"]].
Definition d_b : list tok := [ww "optional"; cc; ww "serde"; pp [ww "default"; pp [ss "two"]]].
Definition d_c : list tok := [ww "default"; pp [n5]; cc; ww "serde"; pp [ww "deserialize"; pp [ww "off"]]].
Definition d_d : list tok := [ww "serde"; pp [ww "default"; pp [n5]]].
Definition d_e : list tok := [ww "sync"; cc; ww "lazy"; cc; ww "serde"; pp [ww "default"]].
Definition d_f : list tok := [ww "serde"; pp [ww "off"]].
Definition d_sources : list source :=
  map (fun t => mk_source [FList t] (terminated t ++ [])) [d_a; d_b; d_c; d_d; d_e; d_f].
Definition d_fields : list field :=
  flat_map (fun p => w_read (fst p) (snd p)) (combine ["a"; "b"; "c"; "d"; "e"; "f"] d_sources).
Definition d_ctx : sctx := Eval vm_compute in
  match read_struct every_feature d_struct with
  | Some s => mk_sctx "S" "pub" s d_fields
  | None => w_ctx
  end.
Lemma d_struct_as : struct_as every_feature (terminated d_struct) (c_args d_ctx).
Proof. exists d_struct. split; [apply w_arguments; reflexivity|vm_compute; reflexivity]. Qed.
Lemma d_read_as : Forall2 (read_as every_feature) d_sources (c_input_fields d_ctx).
Proof.
  apply Forall2_cons; [apply (m_row _ "a"); [reflexivity|vm_compute; reflexivity]|].
  apply Forall2_cons; [apply (m_row _ "b"); [reflexivity|vm_compute; reflexivity]|].
  apply Forall2_cons; [apply (m_row _ "c"); [reflexivity|vm_compute; reflexivity]|].
  apply Forall2_cons; [apply (m_row _ "d"); [reflexivity|vm_compute; reflexivity]|].
  apply Forall2_cons; [apply (m_row _ "e"); [reflexivity|vm_compute; reflexivity]|].
  apply Forall2_cons; [apply (m_row _ "f"); [reflexivity|vm_compute; reflexivity]|].
  apply Forall2_nil.
Qed.
Definition d_named (t : string) : option nat := if String.eqb t """two""" then Some 2 else if String.eqb t "two" then Some 2 else None.
Definition d_given (i : string) : option nat := None.
Definition d_places : list place := map (place_of d_ctx seven 3 five d_named d_given) (all_fields d_ctx).
Lemma d_serde : with_serde (terminated d_struct).
Proof. apply (w_with_serde every_feature d_ctx (terminated d_struct) d_struct_as). vm_compute. reflexivity. Qed.
Example C84_case :
  struct_as every_feature (terminated d_struct) (c_args d_ctx) /\
  Forall2 (read_as every_feature) d_sources (c_input_fields d_ctx) /\ with_serde (terminated d_struct) /\
  into_compiles d_ctx /\ from_compiles d_ctx /\ NoDup (map f_ident (all_fields d_ctx)) /\
  defaults_make_sense d_named (fun f => d_given (f_ident f)) d_ctx /\
  places_told 3 five d_named d_given seven (terminated d_struct) d_sources (map f_ident (c_input_fields d_ctx)) d_places /\
  NoDup (map pl_key (filter (fun p => pl_out p || pl_in p) d_places)).
Proof.
  split; [exact d_struct_as|]. split; [exact d_read_as|]. split; [exact d_serde|].
  split; [into_ok|]. split; [from_ok|]. split; [nodup|]. split; [sense|].
  split; [|nodup].
  apply (w_places every_feature d_ctx (terminated d_struct) d_sources d_struct_as d_read_as seven 3 five d_named d_given d_places d_serde). reflexivity.
Qed.
(** What is written, read and refused.  c is only written and takes its default; f keeps out. *)
Definition d_object : list val :=
  [VProxy false None; VLock false VNone; VT 8; VT 1; VProxy false (Some (VT 6)); VT 9].
Definition d_contents : list (option nat) := [None; None; Some 8; Some 1; Some 6; Some 9].
Example C84_seen :
  stores d_ctx (all_fields d_ctx) d_contents d_object /\
  map pl_missing d_places = [Some None; Some (Some 2); Some (Some 5); Some (Some 5); Some None; Some (Some 3)] /\
  serialise seven false 3 five d_ctx d_object =
    WDone [("alpha", Some 7); ("b", None); ("c", Some 8); ("d", Some 1); ("e", Some 6)] [1; 0] /\
  doc_out (combine d_places d_contents) = [("alpha", Some 7); ("b", None); ("c", Some 8); ("d", Some 1); ("e", Some 6)] /\
  runs_out (combine d_places d_contents) = [1; 0] /\
  map (fun p => goes_round (fst p) (snd p)) (combine d_places d_contents) = [Some 7; None; Some 5; Some 1; Some 6; Some 3] /\
  deserialise seven false 3 five d_named (fun f => d_given (f_ident f)) d_ctx [("alpha", None); ("c", Some 1)] =
    RDone [VProxy false None; VLock false (VSome (VT 2)); VT 5; VT 5; VProxy false None; VT 3] /\
  spec_reads (map slot_at d_places) [("alpha", None); ("c", Some 1)] = Some [None; Some 2; Some 5; Some 5; None; Some 3] /\
  deserialise seven false 3 five d_named (fun f => d_given (f_ident f)) d_ctx [("d", None)] = RRefused /\
  spec_reads (map slot_at d_places) [("d", None)] = None.
Proof. split; [stored|]. vm_compute. repeat split. Qed.
