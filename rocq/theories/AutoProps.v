(** C78: which structs and futures the macro makes are Send and Sync.
    [decl]: the types declared for the fields.  [body_rty c decl]: what the struct is made of.
    [RSelf]: the struct. *)
From Coq Require Import List Bool String.
From Verif Require Import ArgsModel CtxModel TokenSpec ParseInput ParseModel ParseSpec ParseForms GrammarSpec GrammarProps
  RustAst CommonGen StructGen AttrModel WrittenSpec WrittenProofs WrittenProps AutoSpec AutoModel AutoProofs.
Import ListNotations.
Open Scope string_scope.
Open Scope list_scope.

(** All types are there: the macro has complained about none. *)
Definition typed (c : sctx) : Prop := forall f, In f (all_fields c) -> exists t, field_type c f = GOk t.

(** The traits computed are those that the rules give, however the types refer to the struct. *)
Theorem C78_rules : forall b t,
  (sends b t <-> fst (traits (self_traits b) t) = true) /\ (shares b t <-> snd (traits (self_traits b) t) = true).
Proof. exact (fun b t => conj (sends_iff b t) (shares_iff b t)). Qed.
Print Assumptions C78_rules.
(** The struct is Send if and only if all declared types are; with [rc] it must also be for
    threads, and Sync. *)
Theorem C78_send : forall ft c ss all decl b,
  struct_as ft ss (c_args c) -> Forall2 (read_as ft) all (c_input_fields c) -> typed c -> b = body_rty c decl ->
  (sends b RSelf <->
   Forall2 (fun _ f => sends b (decl (f_ident f))) all (c_input_fields c) /\
   (on_in "rc" ss -> threaded ss all /\ Forall2 (fun x f => common ss all b x (decl (f_ident f))) all (c_input_fields c))).
Proof. intros ft c ss all decl b HS HF HT ->. exact (w_send ft c ss all decl HS HF HT). Qed.
Print Assumptions C78_send.
(** It is Sync if and only if no field is in a cell, all declared types are Sync, those behind a
    lock are Send as well; with [rc] it must also be for threads, and Send. *)
Theorem C78_share : forall ft c ss all decl b,
  struct_as ft ss (c_args c) -> Forall2 (read_as ft) all (c_input_fields c) -> typed c -> b = body_rty c decl ->
  (shares b RSelf <->
   Forall2 (fun x f => common ss all b x (decl (f_ident f))) all (c_input_fields c) /\
   (on_in "rc" ss -> threaded ss all /\ Forall2 (fun _ f => sends b (decl (f_ident f))) all (c_input_fields c))).
Proof. intros ft c ss all decl b HS HF HT ->. exact (w_share ft c ss all decl HS HF HT). Qed.
Print Assumptions C78_share.
(** What the documentation promises: all fields behind locks, of types that are Send and Sync. *)
Theorem C78_documented : forall ft c ss all decl b,
  struct_as ft ss (c_args c) -> Forall2 (read_as ft) all (c_input_fields c) -> typed c -> b = body_rty c decl ->
  threaded ss all -> (forall x, In x all -> protected ss all x) ->
  (forall f, In f (c_input_fields c) -> sends b (decl (f_ident f)) /\ shares b (decl (f_ident f))) ->
  sends b RSelf /\ shares b RSelf.
Proof. exact promised. Qed.
Print Assumptions C78_documented.
(** The bounds of the library are met if and only if there is no lazy async field, or the struct
    is Sync. *)
Theorem C78_bounds : forall ft c ss all decl b,
  struct_as ft ss (c_args c) -> Forall2 (read_as ft) all (c_input_fields c) -> typed c -> b = body_rty c decl ->
  (bounds_met c decl = true <-> ((exists x, In x all /\ awaited_lazy ss all x) -> shares b RSelf)).
Proof. intros ft c ss all decl b HS HF HT ->. exact (w_bounds ft c ss all decl HS HF HT). Qed.
Print Assumptions C78_bounds.
(** The future of an async method is Send if and only if the struct is Sync, and, for a setter
    with [into], what it is given is Send. *)
Theorem C78_futures : forall ft c ss all decl b x f passed ms m,
  struct_as ft ss (c_args c) -> Forall2 (read_as ft) all (c_input_fields c) -> typed c -> b = body_rty c decl ->
  read_as ft x f -> In f (c_input_fields c) -> field_methods c f = GOk ms -> In m ms -> m_async m = true ->
  (sends b (future_rty c decl f passed m) <-> shares b RSelf /\ (m_arg m = Some TIntoT -> sends b passed)).
Proof. intros ft c ss all decl b x f passed ms m HS HF HT ->. exact (w_future ft c ss all decl HS HF HT x f passed ms m). Qed.
Print Assumptions C78_futures.

(** ** Cases *)
(** Structs from their tokens. *)
Definition a_source (ts : list tok) : source := mk_source [FList ts] (terminated ts ++ []).
Definition a_fields (l : list (string * list tok)) : list field :=
  flat_map (fun p => w_read (fst p) (a_source (snd p))) l.
Definition a_ctx (ts : list tok) (l : list (string * list tok)) : sctx :=
  match read_struct every_feature ts with
  | Some s => mk_sctx "S" "pub" s (a_fields l)
  | None => w_ctx
  end.
Definition is_typed (c : sctx) : bool :=
  forallb (fun f => match field_type c f with GOk _ => true | _ => false end) (all_fields c).
Lemma is_typed_ok c : is_typed c = true -> typed c.
Proof.
  unfold is_typed, typed. rewrite forallb_forall. intros H f I. specialize (H f I).
  destruct (field_type c f) as [t| |]; [exists t; reflexivity|discriminate|discriminate].
Qed.
Ltac from_tokens := split; [eexists; split; [apply w_arguments; reflexivity|vm_compute; reflexivity]|];
  split; [repeat constructor; try (do 4 eexists; vm_compute; reflexivity);
           first [apply w_arguments; reflexivity|discriminate|let X := fresh in intros [X|[]]; discriminate X]
         |apply is_typed_ok; vm_compute; reflexivity].
Definition decls (l : list (string * rty)) (i : string) : rty :=
  match find (fun p => String.eqb (fst p) i) l with Some p => snd p | None => RLeaf true true end.
Definition found (c : sctx) (decl : string -> rty) : bool * bool * bool :=
  (self_traits (body_rty c decl), bounds_met c decl).
Definition async_futures (c : sctx) (decl : string -> rty) (passed : rty) : list (string * bool) :=
  flat_map (fun f => match field_methods c f with
    | GOk ms => map (fun m => (m_name m, fst (traits (self_traits (body_rty c decl)) (future_rty c decl f passed m))))
                  (filter m_async ms)
    | _ => [] end) (c_input_fields c).

(** [#[fxstruct(r#async, rc)]]: [a] lazy, [b] locked with a setter that converts, [c] without
    arguments and declared as [Option<Weak<Self>>]: all is well; only the setter, given something
    that is not Send, makes a future that is not. *)
Definition t1 : list tok := [ww "r#async"; cc; ww "rc"].
Definition l1 : list (string * list tok) :=
  [("a", [ww "lazy"; cc; ww "get"; pp [ww "clone"]]); ("b", [ww "lock"; cc; ww "reader"; cc; ww "set"; pp [ww "into"]]); ("c", [])].
Definition d1 := decls [("c", ROpt (RArc RSelf))].
Example C78_case :
  struct_as every_feature (terminated t1) (c_args (a_ctx t1 l1)) /\
  Forall2 (read_as every_feature) (map (fun p => a_source (snd p)) l1) (c_input_fields (a_ctx t1 l1)) /\
  typed (a_ctx t1 l1) /\ found (a_ctx t1 l1) d1 = (true, true, true) /\
  async_futures (a_ctx t1 l1) d1 (RLeaf false false) = [("a", true); ("read_b", true); ("set_b", false)] /\
  async_futures (a_ctx t1 l1) d1 (RLeaf true false) = [("a", true); ("read_b", true); ("set_b", true)].
Proof.
  match goal with |- ?A /\ ?B /\ ?C /\ ?D => cut (A /\ B /\ C); [intros (X & Y & Z); split; [exact X|]; split; [exact Y|]; split; [exact Z|]; vm_compute; auto|] end.
  from_tokens.
Qed.
(** The same with one field that asks for [inner_mut]: not Sync, and the lazy async field is not
    accepted by the library. *)
Definition l2 : list (string * list tok) :=
  [("a", [ww "lazy"; cc; ww "get"; pp [ww "clone"]]); ("b", [ww "lock"; cc; ww "reader"; cc; ww "set"; pp [ww "into"]]); ("c", []);
   ("d", [ww "inner_mut"])].
Example C78_cell :
  struct_as every_feature (terminated t1) (c_args (a_ctx t1 l2)) /\
  Forall2 (read_as every_feature) (map (fun p => a_source (snd p)) l2) (c_input_fields (a_ctx t1 l2)) /\
  typed (a_ctx t1 l2) /\ found (a_ctx t1 l2) d1 = (false, false, false) /\
  async_futures (a_ctx t1 l2) d1 (RLeaf true false) = [("a", false); ("read_b", false); ("set_b", false)].
Proof.
  match goal with |- ?A /\ ?B /\ ?C /\ ?D => cut (A /\ B /\ C); [intros (X & Y & Z); split; [exact X|]; split; [exact Y|]; split; [exact Z|]; vm_compute; auto|] end.
  from_tokens.
Qed.
(** A lock does not make a type Sync, and takes Sync away from a type that is not Send:
    [#[fxstruct(sync)]] with a field declared as [Cell<_>] (Send, not Sync), with and without a
    lock; and with a field declared as a [MutexGuard<_>] (Sync, not Send). *)
Definition t3 : list tok := [ww "sync"].
Definition l3 (p : list tok) : list (string * list tok) := [("a", p); ("b", [ww "lazy"])].
Example C78_locks :
  found (a_ctx t3 (l3 [ww "lock"])) (decls [("a", RLeaf true false)]) = (true, false, true) /\
  found (a_ctx t3 (l3 [])) (decls [("a", RLeaf true false)]) = (true, false, true) /\
  found (a_ctx t3 (l3 [ww "lock"])) (decls [("a", RLeaf false true)]) = (false, false, true) /\
  found (a_ctx t3 (l3 [])) (decls [("a", RLeaf false true)]) = (false, true, true).
Proof. vm_compute. auto. Qed.
(** Two lazy fields in a plain struct with [rc]: neither; without it, Send. *)
Example C78_plain :
  found (a_ctx [ww "rc"] (l3 [ww "lazy"])) (decls []) = (false, false, true) /\
  found (a_ctx [] (l3 [ww "lazy"])) (decls []) = (true, false, true).
Proof. vm_compute. auto. Qed.
(** The hypotheses of [C78_documented]. *)
Example C78_promise : let all := map (fun p => a_source (snd p)) (l3 [ww "lock"]) in
  sends (body_rty (a_ctx t3 (l3 [ww "lock"])) (decls [])) RSelf /\ shares (body_rty (a_ctx t3 (l3 [ww "lock"])) (decls [])) RSelf /\
  threaded (terminated t3) all /\ (forall x, In x all -> protected (terminated t3) all x).
Proof.
  intros all. set (c := a_ctx t3 (l3 [ww "lock"])).
  assert (H : struct_as every_feature (terminated t3) (c_args c) /\ Forall2 (read_as every_feature) all (c_input_fields c) /\ typed c)
    by from_tokens.
  destruct H as (HS & HF & HT).
  assert (P : forall x, In x all -> protected (terminated t3) all x).
  { intros x I. destruct (two_in _ _ _ HF x I) as (f & J & R). unfold protected.
    rewrite <- (w_sync _ c _ _ HS HF x f R), <- (f_skipped _ x f R), <- (w_lazy _ c _ HS x f R), <- (w_lock _ c _ HS x f R).
    assert (V : forallb (fun f => is_sync c f && negb (f_skip f) && (is_lazy c f || needs_lock c f)) (c_input_fields c) = true)
      by (vm_compute; reflexivity).
    rewrite forallb_forall in V. specialize (V f J). rewrite !andb_true_iff, orb_true_iff, negb_true_iff in V.
    destruct V as [[V1 V2] V3]. rewrite V1, V2. split; [reflexivity|]. split; [discriminate|exact V3]. }
  assert (T : threaded (terminated t3) all) by (apply (w_rather _ c _ _ HS HF); vm_compute; reflexivity).
  split; [|split; [|split; [exact T|exact P]]]; apply (C78_documented every_feature c _ all (decls []) _ HS HF HT eq_refl T P);
    intros f _; split; constructor.
Qed.
