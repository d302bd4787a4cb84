(** C79: from the tokens of the attributes to the visibility and the signatures of the methods. *)
From Coq Require Import List Bool String.
From Verif Require Import ArgsModel CtxModel ArgsSpec TokenSpec ParseInput ParseModel ParseSpec ParseForms GrammarSpec GrammarProps
  RustAst CommonGen StructGen AttrModel WrittenSpec WrittenProofs WrittenNames WrittenProps SignSpec SignProofs SignMethods SignTypes.
Import ListNotations.
Open Scope string_scope.
Open Scope list_scope.

(** Who may call a method: one visibility is told by the words, and the method has it. *)
Theorem C79_visibility : forall ft c ss all x f ms m q,
  struct_as ft ss (c_args c) -> Forall2 (read_as ft) all (c_input_fields c) -> read_as ft x f ->
  field_methods c f = GOk ms -> In m ms -> told q (in_sync ss all x) ->
  forall v, visible ss (c_vis c) x (ruled_by q (m_kind m)) v <-> v = m_vis m.
Proof. exact (fun ft c ss all x f ms m q HS HF R => w_method_vis ft c ss HS x f R all ms m q HF). Qed.
Print Assumptions C79_visibility.
(** What decides the signatures is told by the words, in one way only. *)
Theorem C79_facts : forall ft c ss all x f,
  struct_as ft ss (c_args c) -> Forall2 (read_as ft) all (c_input_fields c) -> read_as ft x f ->
  exists q, forall q', facts_told ss all x q' <-> q' = q.
Proof. exact (fun ft c ss all x f HS HF R => ex_intro _ _ (w_facts ft c ss HS x f R all HF)). Qed.
Print Assumptions C79_facts.
(** Every method is an [async fn] or not, takes [self] and its argument, and returns, as told. *)
Theorem C79_signatures : forall ft c ss all x f ms m q,
  struct_as ft ss (c_args c) -> Forall2 (read_as ft) all (c_input_fields c) -> read_as ft x f ->
  field_methods c f = GOk ms -> In m ms -> facts_told ss all x q ->
  (m_async m, m_self m, m_arg m, m_ret m) = signature q (m_kind m).
Proof. exact (fun ft c ss all x f ms m q HS HF R => w_signature ft c ss HS x f R all HF ms m q). Qed.
Print Assumptions C79_signatures.
(** The setters of the builder are public, take the builder by value and return it; whether they
    convert what they are given is told. *)
Theorem C79_builder_setters : forall ft c ss x f m b,
  struct_as ft ss (c_args c) -> read_as ft x f -> field_builder (cfg_of c f) = Some m -> told b (builder_converts ss x) ->
  m_kind m = KBuilder /\ m_vis m = "pub" /\
  (m_async m, m_self m, m_arg m, m_ret m) = (false, SOwn, Some (if b then TIntoT else TT), TSelf).
Proof. exact (fun ft c ss x f m b HS R M => w_builder_setter ft c ss HS x f R m M b). Qed.
Print Assumptions C79_builder_setters.

(** ** A case *)
(** [#[fxstruct(get(copy, public(crate)), into, public(super))]] and the fields
    [#[fieldx(sync(off), lazy, get(clone), set(into = false), get_mut(private))]],
    [#[fieldx(r#async, lock, get_mut(public), set("put", public(in_mod = "a::b")), predicate, copy(off),
    private)]] and [#[fieldx(inner_mut, optional, get(as_ref), clearer, builder(into(off)))]]. *)
Definition eq1 : tok := TPunct "=".
Definition v_struct : list tok :=
  [ww "get"; pp [ww "copy"; cc; ww "public"; pp [ww "crate"]]; cc; ww "into"; cc; ww "public"; pp [ww "super"]].
Definition v_a : list tok :=
  [ww "sync"; pp [ww "off"]; cc; ww "lazy"; cc; ww "get"; pp [ww "clone"]; cc; ww "set"; pp [ww "into"; eq1; ww "false"]; cc;
   ww "get_mut"; pp [ww "private"]].
Definition v_b : list tok :=
  [ww "r#async"; cc; ww "lock"; cc; ww "get_mut"; pp [ww "public"]; cc; ww "set"; pp [ss "put"; cc; ww "public"; pp [ww "in_mod"; eq1; ss "a::b"]]; cc;
   ww "predicate"; cc; ww "copy"; pp [ww "off"]; cc; ww "private"].
Definition v_c : list tok :=
  [ww "inner_mut"; cc; ww "optional"; cc; ww "get"; pp [ww "as_ref"]; cc; ww "clearer"; cc; ww "builder"; pp [ww "into"; pp [ww "off"]]].
Definition v_sources : list source :=
  map (fun t => mk_source [FList t] (terminated t ++ [])) [v_a; v_b; v_c].
Definition v_fields : list field :=
  flat_map (fun p => w_read (fst p) (snd p)) (combine ["a"; "b"; "c"] v_sources).
Definition v_ctx : sctx :=
  match read_struct every_feature v_struct with
  | Some s => mk_sctx "S" "pub" s v_fields
  | None => w_ctx
  end.
Definition v_view (f : field) :=
  (match field_methods v_ctx f with
   | GOk ms => map (fun m => (m_kind m, m_vis m, (m_async m, m_self m, m_arg m, m_ret m))) ms
   | _ => []
   end, option_map m_arg (field_builder (cfg_of v_ctx f))).
Lemma v_struct_as : struct_as every_feature (terminated v_struct) (c_args v_ctx).
Proof. exists v_struct. split; [apply w_arguments; reflexivity|vm_compute; reflexivity]. Qed.
Lemma v_read_as : Forall2 (read_as every_feature) v_sources (c_input_fields v_ctx).
Proof. repeat constructor; try (do 4 eexists; vm_compute; reflexivity); apply w_arguments; reflexivity. Qed.
(** The hypotheses hold, and this is what is made. *)
Example C79_case :
  struct_as every_feature (terminated v_struct) (c_args v_ctx) /\
  Forall2 (read_as every_feature) v_sources (c_input_fields v_ctx) /\
  map v_view (c_input_fields v_ctx) =
    [ ([ (KAccessor, "pub(crate)", (false, SRef, None, TT));
         (KAccessorMut, "", (false, SMut, None, TMut TT));
         (KSetter, "pub(super)", (false, SMut, Some TT, TOpt TT)) ], None);
      ([ (KAccessor, "", (true, SRef, None, TLockR true (TOpt TT)));
         (KAccessorMut, "", (false, SRef, None, TLockW true (TOpt TT)));
         (KSetter, "pub(in a::b)", (true, SRef, Some TIntoT, TOpt TT));
         (KPredicate, "", (true, SRef, None, TBool)) ], None);
      ([ (KAccessor, "pub(crate)", (false, SRef, None, TCellR (TOpt (TRef TT))));
         (KClearer, "pub(super)", (false, SRef, None, TOpt TT)) ], Some (Some TT)) ].
Proof. split; [exact v_struct_as|]. split; [exact v_read_as|vm_compute; reflexivity]. Qed.
Lemma pair_at {A B} (P : A -> B -> Prop) l m : Forall2 P l m -> forall n x y, nth_error l n = Some x -> nth_error m n = Some y -> P x y.
Proof. induction 1 as [|a b l m H F IH]; intros [|n] x y; simpl; try discriminate; [|apply IH]. intros E1 E2. congruence. Qed.
(** Read back through the theorems.  [get_mut(public)] of the second field does not make the method
    public: [get], of which nothing is said, and [private] decide.  That field hands out a guard,
    as [copy(off)] has the last word over [get(copy)] of the struct. *)
Example C79_back : exists x q, nth_error v_sources 1 = Some x /\ facts_told (terminated v_struct) v_sources x q /\
  q_sync q = true /\ q_async q = true /\ q_copied q = false /\ q_cloned q = false /\ q_converts q = true /\
  visible (terminated v_struct) "pub" x KAccessor "" /\ ~ visible (terminated v_struct) "pub" x KAccessor "pub" /\
  shown_in "get_mut" (so_args x) "pub".
Proof.
  destruct (nth_error (c_input_fields v_ctx) 1) as [f|] eqn:EF; [|vm_compute in EF; discriminate].
  destruct (nth_error v_sources 1) as [x|] eqn:EX; [|discriminate].
  pose proof (pair_at _ _ _ v_read_as 1 x f EX EF) as R.
  exists x. eexists. split; [reflexivity|].
  split; [apply (w_facts every_feature v_ctx _ v_struct_as x f R v_sources v_read_as); reflexivity|].
  pose proof (w_vis every_feature v_ctx _ v_struct_as x f R KAccessor) as V. rewrite !V by discriminate.
  split; [injection EF as <-; vm_compute; reflexivity|]. split; [injection EF as <-; vm_compute; reflexivity|].
  split; [injection EF as <-; vm_compute; reflexivity|]. split; [injection EF as <-; vm_compute; reflexivity|].
  split; [injection EF as <-; vm_compute; reflexivity|]. split; [injection EF as <-; vm_compute; reflexivity|].
  split; [injection EF as <-; vm_compute; discriminate|].
  assert (T : tells (shown_in "get_mut" (so_args x)) (option_map pub_tok (CtxModel.obind (f_get_helper f KAccessorMut) helper_public_mode)))
    by (apply (field_helper_shown every_feature x f R KAccessorMut); discriminate).
  apply T. injection EF as <-. vm_compute. reflexivity.
Qed.
