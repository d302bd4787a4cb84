(** Properties of writing and reading with serde: C39, C40, C48 and C49.  [serialise] and
    [deserialise] run the emitted conversions (SerdeModel.v); SerdeSpec.v says what they
    should do.  [stores c fs ks o]: the fields [fs] of the object [o] hold the contents
    [ks].  [into_compiles], [from_compiles]: the two conversions compile. *)
From Coq Require Import List Bool String Arith.
From Verif Require Import ProxyTypes ArgsModel CtxModel ArgsSpec ArgsFixtures ArgsProps RustAst RustTyping
  CommonGen StructGen CodegenSpec CodegenValues CodegenProps RustSem FieldRun SerdeSpec SerdeModel SerdeProofs SerdeFacts.
Import ListNotations.
Open Scope string_scope.

(** *** Structs for the examples *)
Definition sfield (x : string) : field := bare_field x "T".
Definition serde_with (d : option defarg) : option serde :=
  Some (mk_serde false None None None None None None d None).
Definition ser_only : option serde :=
  Some (mk_serde false None None None None (Some false) None None None).
(** b is optional, c is lazy, d has a default and another name, e is not for serde, g is
    only written. *)
Definition mixed_fields : list field :=
  [sfield "a"; put_f_optional (Some true) (sfield "b"); put_f_lazy h_on (sfield "c");
   put_f_base_name (Some (mk_strarg false (Some "delta"))) (put_f_default (def_val "5") (sfield "d"));
   put_f_serde serde_off (sfield "e"); put_f_serde ser_only (sfield "g")].
Definition mixed (s : sargs) : sctx := ctx_of (put_s_serde serde_on s) mixed_fields.
Definition five (v : string) : nat := if String.eqb v "5" then 5 else 0.
Definition seven (x : string) (i : nat) : outcome nat nat := BOk 7.
Definition failing (x : string) (i : nat) : outcome nat nat := BErr 1.
Definition no_named (v : string) : option nat := None.
Definition no_given (f : field) : option nat := None.
Definition mixed_contents : list (option nat) := [Some 1; None; None; Some 4; Some 8; Some 9].
Definition plain_object : list val := [VT 1; VNone; VOnce None; VT 4; VT 8; VT 9].
Definition sync_object : list val :=
  [VT 1; VLock false VNone; VProxy false None; VT 4; VT 8; VT 9].

Ltac each :=
  match goal with H : In _ _ |- _ => vm_compute in H end;
  repeat match goal with
         | H : _ \/ _ |- _ => destruct H as [H|H]
         | H : False |- _ => destruct H
         end;
  repeat match goal with H : (_, _) = (_, _) |- _ => injection H as <- <- end;
  repeat match goal with H : _ = ?f |- _ => is_var f; subst f end.
Ltac lists := split; [nodup|split; [vm_compute; intuition|vm_compute; intuition discriminate]].
Ltac into_ok :=
  split; [reflexivity|split; [lists|]];
  let f := fresh in let t := fresh in let H := fresh in let E := fresh in
  intros f t H E; each; vm_compute in E; injection E as <-; reflexivity.
Ltac from_ok :=
  split; [reflexivity|split; [lists|split]];
  [intros ? ?; each; eexists; reflexivity
  |let f := fresh in let t := fresh in let e := fresh in let H := fresh in let E1 := fresh in let E2 := fresh in
   intros _ f t e H E1 E2; each; vm_compute in E1, E2; injection E1 as <-; injection E2 as <-; reflexivity].
Ltac sense := split; [intros f d t H E1 E2 E3 E4; each; vm_compute in E1; try discriminate;
                      injection E1 as <-; vm_compute in E2, E3; discriminate
                     |intros d H; vm_compute in H; try discriminate; injection H as <-; try reflexivity].
Ltac stored := vm_compute; repeat (split; [eexists; split; reflexivity|]); exact I.

(** ** C39 *)

(** Every field that is written and read comes back with its content, a lazy one with its
    built value; every other field holds its default.  Missing for the full claim: unset
    lazy fields that are async or whose builder fails, and empty plain optional fields
    with a default ([comes_back]). *)
Theorem C39_round_trip_partial : forall bld alive dflt user named given c ks o,
  into_compiles c -> from_compiles c -> NoDup (map f_ident (all_fields c)) ->
  defaults_make_sense named given c -> keys_distinct c -> stores c (all_fields c) ks o ->
  (forall f k, In (f, k) (combine (all_fields c) ks) ->
     blows_up bld c f k = false /\ comes_back bld c f k) ->
  exists d n o', serialise bld alive dflt user c o = WDone d n /\
    deserialise bld alive dflt user named given c d = RDone o' /\
    stores c (all_fields c)
      (map (fun p => spec_back (fst p) (snd p)) (combine (slots bld dflt user named given c) ks)) o'.
Proof. exact round_trip. Qed.
Example round_trip_plain :
  into_compiles (mixed plain_s) /\ from_compiles (mixed plain_s) /\
  NoDup (map f_ident (all_fields (mixed plain_s))) /\ keys_distinct (mixed plain_s) /\
  defaults_make_sense no_named no_given (mixed plain_s) /\
  stores (mixed plain_s) (all_fields (mixed plain_s)) mixed_contents plain_object /\
  (forall f k, In (f, k) (combine (all_fields (mixed plain_s)) mixed_contents) ->
     blows_up seven (mixed plain_s) f k = false /\ comes_back seven (mixed plain_s) f k) /\
  serialise seven false 3 five (mixed plain_s) plain_object
    = WDone [("a", Some 1); ("b", None); ("c", Some 7); ("delta", Some 4); ("g", Some 9)] [1] /\
  deserialise seven false 3 five no_named no_given (mixed plain_s)
    [("a", Some 1); ("b", None); ("c", Some 7); ("delta", Some 4); ("g", Some 9)]
    = RDone [VT 1; VNone; VOnce (Some (VT 7)); VT 4; VT 3; VT 3].
Proof.
  split; [into_ok|]. split; [from_ok|]. split; [nodup|]. split; [nodup|]. split; [sense|]. split; [stored|].
  split; [intros f k H; each; (split; [reflexivity|]); intros E1 E2 E3; try discriminate;
          vm_compute; auto; split; [reflexivity|eexists; reflexivity]|].
  split; reflexivity.
Qed.
Example round_trip_sync :
  into_compiles (mixed sync_s) /\ from_compiles (mixed sync_s) /\
  stores (mixed sync_s) (all_fields (mixed sync_s)) mixed_contents sync_object /\
  (forall f k, In (f, k) (combine (all_fields (mixed sync_s)) mixed_contents) ->
     blows_up seven (mixed sync_s) f k = false /\ comes_back seven (mixed sync_s) f k) /\
  serialise seven false 3 five (mixed sync_s) sync_object
    = WDone [("a", Some 1); ("b", None); ("c", Some 7); ("delta", Some 4); ("g", Some 9)] [1] /\
  deserialise seven false 3 five no_named no_given (mixed sync_s)
    [("a", Some 1); ("b", None); ("c", Some 7); ("delta", Some 4); ("g", Some 9)]
    = RDone [VT 1; VLock false VNone; VProxy false (Some (VT 7)); VT 4; VT 3; VT 3].
Proof.
  split; [into_ok|]. split; [from_ok|]. split; [stored|].
  split; [intros f k H; each; (split; [reflexivity|]); intros E1 E2 E3; try discriminate;
          vm_compute; auto; split; [reflexivity|eexists; reflexivity]|].
  split; reflexivity.
Qed.
(** Exactly what is held after the round trip, in every case where writing succeeds: the
    document is never refused, and an empty plain field takes its default. *)
Theorem C39_round_trip_exact : forall bld alive dflt user named given c ks o d n,
  into_compiles c -> from_compiles c -> NoDup (map f_ident (all_fields c)) ->
  defaults_make_sense named given c -> keys_distinct c -> stores c (all_fields c) ks o ->
  serialise bld alive dflt user c o = WDone d n ->
  exists o', deserialise bld alive dflt user named given c d = RDone o' /\
    stores c (all_fields c)
      (map (fun p => really_back bld dflt user c (fst p) (snd p)) (combine (all_fields c) ks)) o'.
Proof. intros. eapply round_trip_exact; eauto. Qed.
(** A plain optional field with a default that was cleared comes back with the default;
    the same struct with [sync] keeps it empty. *)
Definition cleared (s : sargs) : sctx :=
  ctx_of (put_s_serde serde_on s)
    [put_f_clearer h_on (put_f_default (def_val "5") (sfield "a"))].
Theorem C39_cleared_refuted : exists c ks o d n o',
  into_compiles c /\ from_compiles c /\ NoDup (map f_ident (all_fields c)) /\
  defaults_make_sense no_named no_given c /\ keys_distinct c /\
  stores c (all_fields c) ks o /\
  serialise seven false 3 five c o = WDone d n /\
  deserialise seven false 3 five no_named no_given c d = RDone o' /\
  ~ stores c (all_fields c)
      (map (fun p => spec_back (fst p) (snd p)) (combine (slots seven 3 five no_named no_given c) ks)) o'.
Proof.
  exists (cleared plain_s), [None], [VNone], [("a", None)], [], [VSome (VT 5)].
  split; [into_ok|]. split; [from_ok|]. split; [nodup|]. split; [sense|]. split; [nodup|]. split; [stored|].
  split; [reflexivity|]. split; [reflexivity|]. vm_compute. intros [(t & E1 & E2) _]. injection E1 as <-. discriminate E2.
Qed.
Example cleared_sync :
  serialise seven false 3 five (cleared sync_s) [VLock false VNone] = WDone [("a", None)] [] /\
  deserialise seven false 3 five no_named no_given (cleared sync_s) [("a", None)] = RDone [VLock false VNone].
Proof. split; reflexivity. Qed.

(** ** C40 *)

(** The document holds the built value of every written lazy field that was unset, and
    each builder ran once if its field was unset, else not at all.  Missing for the full
    claim: async fields ([not_awaited]), and builders that fail ([spec_document] is then
    undefined). *)
Theorem C40_builds_once_partial : forall bld alive dflt user named given c ks o d,
  into_compiles c -> NoDup (map f_ident (all_fields c)) -> stores c (all_fields c) ks o ->
  (forall f k, In (f, k) (combine (all_fields c) ks) -> not_awaited c f k = false) ->
  spec_document (combine (slots bld dflt user named given c) ks) = Some d ->
  serialise bld alive dflt user c o
    = WDone d (spec_builds (combine (slots bld dflt user named given c) ks)).
Proof. exact serialise_as_spec. Qed.
Example builds_once :
  (forall f k, In (f, k) (combine (all_fields (mixed sync_s)) mixed_contents) ->
     not_awaited (mixed sync_s) f k = false) /\
  spec_document (combine (slots seven 3 five no_named no_given (mixed sync_s)) mixed_contents)
    = Some [("a", Some 1); ("b", None); ("c", Some 7); ("delta", Some 4); ("g", Some 9)] /\
  spec_builds (combine (slots seven 3 five no_named no_given (mixed sync_s)) mixed_contents) = [1].
Proof. split; [intros f k H; each; reflexivity|]. split; reflexivity. Qed.
(** Plain and sync versions of the same fields write the same document. *)
Theorem C40_plain_and_sync_alike : forall bld alive dflt user named given c1 c2 ks o1 o2 d,
  into_compiles c1 -> into_compiles c2 ->
  NoDup (map f_ident (all_fields c1)) -> NoDup (map f_ident (all_fields c2)) ->
  stores c1 (all_fields c1) ks o1 -> stores c2 (all_fields c2) ks o2 ->
  (forall f k, In (f, k) (combine (all_fields c1) ks) -> not_awaited c1 f k = false) ->
  (forall f k, In (f, k) (combine (all_fields c2) ks) -> not_awaited c2 f k = false) ->
  slots bld dflt user named given c1 = slots bld dflt user named given c2 ->
  spec_document (combine (slots bld dflt user named given c1) ks) = Some d ->
  serialise bld alive dflt user c1 o1 = serialise bld alive dflt user c2 o2.
Proof.
  intros bld alive dflt user named given c1 c2 ks o1 o2 d H1 H2 N1 N2 S1 S2 W1 W2 E D.
  rewrite (serialise_as_spec bld alive dflt user named given c1 ks o1 d) by assumption.
  rewrite E in *. symmetry. now apply (serialise_as_spec bld alive dflt user named given c2 ks o2 d).
Qed.
Example plain_and_sync : slots seven 3 five no_named no_given (mixed plain_s)
  = slots seven 3 five no_named no_given (mixed sync_s).
Proof. reflexivity. Qed.
(** Exactly what is written and how often builders run, unless one of them panics. *)
Theorem C40_exact : forall bld alive dflt user c ks o,
  into_compiles c -> NoDup (map f_ident (all_fields c)) -> stores c (all_fields c) ks o ->
  (forall f k, In (f, k) (combine (all_fields c) ks) -> blows_up bld c f k = false) ->
  serialise bld alive dflt user c o =
  WDone (map (fun p => (doc_key (fst p), really_written bld c (fst p) (snd p)))
           (filter (fun p => field_serializes (fst p)) (combine (all_fields c) ks)))
        (map (fun p => match snd p with Some _ => 0 | None => if waits c (fst p) then 0 else 1 end)
           (filter (fun p => field_serializes (fst p) && is_lazy c (fst p)) (combine (all_fields c) ks))).
Proof. exact serialise_exact. Qed.
(** It panics exactly when a builder that is run panics, or fails without being fallible. *)
Theorem C40_panics_iff : forall bld alive dflt user c ks o,
  into_compiles c -> NoDup (map f_ident (all_fields c)) -> stores c (all_fields c) ks o ->
  (serialise bld alive dflt user c o = WPanic <->
   exists f k, In (f, k) (combine (all_fields c) ks) /\ blows_up bld c f k = true) /\
  serialise bld alive dflt user c o <> WStuck.
Proof. exact serialise_panics. Qed.
Example panicking_builder :
  serialise (fun _ _ => BPanic) false 3 five (mixed plain_s) plain_object = WPanic /\
  serialise (fun _ _ => BPanic) false 3 five (mixed plain_s)
    [VT 1; VNone; VOnce (Some (VT 2)); VT 4; VT 8; VT 9]
    = WDone [("a", Some 1); ("b", None); ("c", Some 2); ("delta", Some 4); ("g", Some 9)] [0].
Proof. split; reflexivity. Qed.
(** An unset async lazy field is written as null and its builder is not run. *)
Definition lazies (s : sargs) (f : field -> field) : sctx :=
  ctx_of (put_s_serde serde_on s) [f (put_f_lazy h_on (sfield "a"))].
Theorem C40_async_refuted : exists c ks o d,
  into_compiles c /\ NoDup (map f_ident (all_fields c)) /\ stores c (all_fields c) ks o /\
  spec_document (combine (slots seven 3 five no_named no_given c) ks) = Some [("a", Some 7)] /\
  serialise seven false 3 five c o = WDone d [0] /\ d = [("a", None)].
Proof.
  exists (lazies async_s (fun f => f)), [None], [VProxy true None], [("a", None)].
  split; [into_ok|]. split; [nodup|]. split; [stored|]. repeat split.
Qed.
(** The error of a fallible builder is lost: null is written instead. *)
Definition may_fail (f : field) : field := put_f_fallible (Some (mk_fallible false (Some "E"))) f.
Theorem C40_failing_refuted : exists c1 c2 ks o1 o2,
  into_compiles c1 /\ NoDup (map f_ident (all_fields c1)) /\ stores c1 (all_fields c1) ks o1 /\
  into_compiles c2 /\ NoDup (map f_ident (all_fields c2)) /\ stores c2 (all_fields c2) ks o2 /\
  (forall f, In f (all_fields c1 ++ all_fields c2) -> failing (f_ident f) 0 = BErr 1) /\
  serialise failing false 3 five c1 o1 = WDone [("a", None)] [1] /\
  serialise failing false 3 five c2 o2 = WDone [("a", None)] [1].
Proof.
  exists (lazies plain_s may_fail), (lazies sync_s may_fail), [None], [VOnce None], [VProxy false None].
  split; [into_ok|]. split; [nodup|]. split; [stored|]. split; [into_ok|]. split; [nodup|]. split; [stored|].
  repeat split.
Qed.

(** ** C48 *)
Definition serde_name (f : field) : option string :=
  match f_serde f with
  | Some w => match se_shadow_name w with Some n => strarg_value n | None => None end
  | None => None
  end.
(** The keys of a document are the documented names of the written fields, in order.
    Missing for the full claim: fields with a name given to serde. *)
Theorem C48_keys_partial : forall bld alive dflt user c ks o d n,
  into_compiles c -> NoDup (map f_ident (all_fields c)) -> stores c (all_fields c) ks o ->
  (forall f, In f (all_fields c) -> field_serializes f = true -> serde_name f = None) ->
  serialise bld alive dflt user c o = WDone d n ->
  map fst d = map (fun f => spec_key (serde_name f) (f_base_name_of f) (f_ident f))
                (filter field_serializes (all_fields c)).
Proof. exact document_keys. Qed.
Example keys : (forall f, In f mixed_fields -> field_serializes f = true -> serde_name f = None) /\
  map (fun f => spec_key (serde_name f) (f_base_name_of f) (f_ident f)) (filter field_serializes mixed_fields)
  = ["a"; "b"; "c"; "delta"; "g"].
Proof. split; [intros f H _; each; reflexivity|reflexivity]. Qed.
(** The name given to serde for a field has no effect. *)
Theorem C48_serde_name_refuted : exists c ks o d n f,
  into_compiles c /\ NoDup (map f_ident (all_fields c)) /\ stores c (all_fields c) ks o /\
  In f (all_fields c) /\ serde_name f = Some "alpha" /\
  serialise seven false 3 five c o = WDone d n /\ map fst d = ["a"].
Proof.
  exists (ctx_of serde_s [put_f_serde (Some (mk_serde false None None None None None None None
            (Some (mk_strarg false (Some "alpha"))))) (sfield "a")]), [Some 1], [VT 1], [("a", Some 1)], [].
  eexists. split; [into_ok|]. split; [nodup|]. split; [stored|]. split; [left; reflexivity|]. repeat split.
Qed.

(** ** C49 *)

(** A field that is read takes the value under its key, even null if it may be empty; if
    the key is missing the default given to serde for it, else the one of the struct,
    else it is empty if it may be.  Every other field takes its own default.  Missing for
    the full claim: plain fields with a default of their own that would be empty
    ([turns_into_default]). *)
Theorem C49_reads_partial : forall bld alive dflt user named given c d ks,
  from_compiles c -> NoDup (map f_ident (all_fields c)) -> defaults_make_sense named given c ->
  spec_reads (slots bld dflt user named given c) d = Some ks ->
  (forall f, In f (all_fields c) -> ~ turns_into_default bld dflt user named given c f d) ->
  exists o, deserialise bld alive dflt user named given c d = RDone o /\ stores c (all_fields c) ks o.
Proof.
  intros bld alive dflt user named given c d ks H1 H2 H3 H4 H5.
  exact (proj2 (deserialise_as_spec bld alive dflt user named given c d H1 H2 H3) ks H4 H5).
Qed.
(** A document is refused exactly when a key is null or missing for a field that cannot
    be empty and has no default told to serde. *)
Theorem C49_refused_iff : forall bld alive dflt user named given c d,
  from_compiles c -> NoDup (map f_ident (all_fields c)) -> defaults_make_sense named given c ->
  (deserialise bld alive dflt user named given c d = RRefused <->
   spec_reads (slots bld dflt user named given c) d = None).
Proof.
  intros bld alive dflt user named given c d H1 H2 H3.
  exact (proj1 (deserialise_as_spec bld alive dflt user named given c d H1 H2 H3)).
Qed.
(** Exactly what is read. *)
Theorem C49_reads_exact : forall bld alive dflt user named given c d ks,
  from_compiles c -> NoDup (map f_ident (all_fields c)) -> defaults_make_sense named given c ->
  spec_reads (slots bld dflt user named given c) d = Some ks ->
  exists o, deserialise bld alive dflt user named given c d = RDone o /\
    stores c (all_fields c)
      (map (fun p => really_read dflt user c (fst p) (snd p)) (combine (all_fields c) ks)) o.
Proof. intros. now apply deserialise_exact. Qed.
(** a: a default told to serde; b: a function named; c: the struct's; d: may be empty. *)
Definition sparse_fields : list field :=
  [put_f_serde (serde_with (def_val "5")) (sfield "a");
   put_f_serde (serde_with (Some (mk_defarg false (Some "two") true))) (put_f_optional (Some true) (sfield "b"));
   put_f_default (def_val "5") (sfield "c"); put_f_lazy h_on (sfield "d");
   put_f_serde (serde_with (Some (mk_defarg false None false))) (put_f_default (def_val "5") (sfield "e"))].
Definition sparse (s : sargs) : sctx := ctx_of (put_s_serde (serde_with (Some (mk_defarg false None false))) s) sparse_fields.
Definition two (v : string) : option nat := if String.eqb v "two" then Some 2 else None.
Example sparse_read :
  from_compiles (sparse sync_s) /\ NoDup (map f_ident (all_fields (sparse sync_s))) /\
  defaults_make_sense two no_given (sparse sync_s) /\
  spec_reads (slots seven 3 five two no_given (sparse sync_s)) [("d", Some 1)]
    = Some [Some 5; Some 2; Some 5; Some 1; Some 3] /\
  deserialise seven false 3 five two no_given (sparse sync_s) [("d", Some 1)]
    = RDone [VT 5; VLock false (VSome (VT 2)); VT 5; VProxy false (Some (VT 1)); VT 3] /\
  deserialise seven false 3 five two no_given (sparse sync_s) [("c", None)] = RRefused /\
  deserialise seven false 3 five two no_given (mixed sync_s) [("b", Some 1)] = RRefused.
Proof.
  split; [from_ok|]. split; [nodup|].
  split; [split; [intros f d t H E1 E2 E3 E4; each; vm_compute in E1; try discriminate E1; injection E1 as <-;
                  vm_compute in E2, E3, E4; discriminate
                 |intros d H; vm_compute in H; injection H as <-; reflexivity]|].
  repeat split; reflexivity.
Qed.
(** serde(default(off, 5)) is no default. *)
Example default_off :
  deserialise seven false 3 five no_named no_given
    (ctx_of serde_s [put_f_serde (serde_with (Some (mk_defarg true (Some "5") false))) (sfield "a")]) [] = RRefused /\
  deserialise seven false 3 five no_named no_given
    (ctx_of serde_s [put_f_serde (serde_with (Some (mk_defarg false (Some "5") false))) (sfield "a")]) [] = RDone [VT 5].
Proof. split; reflexivity. Qed.
(** A plain lazy field with a default reads a missing key, or null, as the default; the
    same field with [sync] stays unset and is built later. *)
Definition lazy_default (s : sargs) : sctx := lazies s (put_f_default (def_val "5")).
Theorem C49_plain_default_refuted : exists c o,
  from_compiles c /\ NoDup (map f_ident (all_fields c)) /\ defaults_make_sense no_named no_given c /\
  spec_reads (slots seven 3 five no_named no_given c) [("a", None)] = Some [None] /\
  deserialise seven false 3 five no_named no_given c [("a", None)] = RDone o /\
  ~ stores c (all_fields c) [None] o.
Proof.
  exists (lazy_default plain_s), [VOnce (Some (VT 5))].
  split; [from_ok|]. split; [nodup|]. split; [sense|]. split; [reflexivity|]. split; [reflexivity|].
  vm_compute. intros [(t & E1 & E2) _]. injection E1 as <-. discriminate E2.
Qed.
Example lazy_default_sync :
  deserialise seven false 3 five no_named no_given (lazy_default sync_s) [("a", None)]
    = RDone [VProxy false None] /\
  deserialise seven false 3 five no_named no_given (lazy_default sync_s) [] = RDone [VProxy false None] /\
  deserialise seven false 3 five no_named no_given (lazy_default plain_s) [] = RDone [VOnce (Some (VT 5))].
Proof. repeat split. Qed.

Print Assumptions C39_round_trip_partial.
Print Assumptions C39_round_trip_exact.
Print Assumptions C39_cleared_refuted.
Print Assumptions C40_builds_once_partial.
Print Assumptions C40_plain_and_sync_alike.
Print Assumptions C40_exact.
Print Assumptions C40_panics_iff.
Print Assumptions C40_async_refuted.
Print Assumptions C40_failing_refuted.
Print Assumptions C48_keys_partial.
Print Assumptions C48_serde_name_refuted.
Print Assumptions C49_reads_partial.
Print Assumptions C49_refused_iff.
Print Assumptions C49_reads_exact.
Print Assumptions C49_plain_default_refuted.
