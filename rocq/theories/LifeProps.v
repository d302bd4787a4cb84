(** Property C93: the life of an object, through uses by its owner and by many. *)
From Coq Require Import List Bool String Arith Lia.
From Verif Require Import ProxyTypes ArgsModel CtxModel ArgsSpec TokenSpec ParseInput ParseModel ParseSpec ParseForms GrammarSpec GrammarProps
  ArgsFixtures ArgsProps CodegenProps GuardCell RustAst CommonGen StructGen CodegenSpec FieldSpec FieldRun FieldStruct FieldProps
  WrittenSpec WrittenProofs WrittenNames WrittenProps SignSpec SignTypes SignMethods SignProps MadeSpec MadeProofs MadeSerde MadeProps
  BuilderSpec BuilderModel BehaveSpec BehaveProofs SerdeSpec SerdeModel SerdeProps DocSpec DocProofs DocProps
  ThreadSpec ThreadModel ThreadProps LockedModel LockedProps ObjectSpec ObjectModel ObjectParts ObjectRecord ObjectWords ObjectProps EndSpec
  LifeSpec LifeModel LifeRecord LifeWords.
Import ListNotations.
Open Scope string_scope.
Open Scope list_scope.

(** ** C93 *)
(** What owners and users of an object see in all of its life is what those of a record of
    cells can see, and in the end the fields store what the cells then hold. *)
Theorem C93_life : forall dflt user c fs vs scenes vs' ks,
  (forall f, In f fs -> f_is_skipped f = false) ->
  (forall f ms k, In f fs -> field_methods c f = GOk ms -> In k (map m_kind ms) -> works c f k = true) ->
  lives dflt user c fs vs scenes vs' -> stores c fs ks vs ->
  let parts := map (fun f => (view_of c f, is_async c f)) fs in
  Forall (makes_sense dflt parts) scenes ->
  exists ks', tale dflt parts ks scenes ks' /\ stores c fs ks' vs'.
Proof. exact (fun dflt user c fs vs scenes vs' ks Sk Wk L => whole_life dflt user c fs Sk Wk vs scenes vs' L ks). Qed.
Print Assumptions C93_life.
(** The fields can be shared unless one of them is not sync and lazy or changed inside. *)
Theorem C93_shared : forall c fs ks vs,
  stores c fs ks vs -> (forall f, In f fs -> f_is_skipped f = false) -> (forall f, In f fs -> exists ms, field_methods c f = GOk ms) ->
  ((exists ps, map (fun x => part_from c (fst x) (snd x)) (combine fs vs) = map Some ps) <->
   forall f, In f fs -> is_sync c f = true \/ (is_lazy c f = false /\ is_inner_mut c f = false)).
Proof. exact can_share. Qed.
Print Assumptions C93_shared.
(** When all users are done and keep nothing, every lock is free and every field stores what
    its cell holds. *)
Theorem C93_settles : forall c fo ps bld dflt user l s h t,
  (forall f o, In (f, o) fo -> f_is_skipped f = false) ->
  map (fun x => part_of c (fst x) (snd x)) fo = map Some ps ->
  (forall f o ms k, In (f, o) fo -> field_methods c f = GOk ms -> In k (map m_kind ms) -> works c f k = true) ->
  object_run dflt user ps l = Some (s, h, t) -> (forall i, oracle (bld i) (at_field i t)) -> all_over s ->
  let roles := map (fun x => mk_role (view_of c (fst x)) (is_async c (fst x)) (snd x)) fo in
  exists ws ks vs, rruns bld dflt roles (rstart roles) h ws /\ Forall2 left_with ws ks /\
    map (fun x => at_rest (p_store (fst x)) (snd x)) (combine ps (o_fields s)) = map Some vs /\ stores c (map fst fo) ks vs.
Proof. exact (fun c fo ps bld dflt user l s h t Sk Po Wk => object_left c fo ps bld dflt user Sk Po Wk l s h t). Qed.
Print Assumptions C93_settles.
(** Whatever an owner may ask of a cell, they may ask of the field. *)
Theorem C93_alone : forall dflt user c fs ks vs bld i f ms l os k k' b,
  (forall f, In f fs -> f_is_skipped f = false) ->
  (forall f ms k, In f fs -> field_methods c f = GOk ms -> In k (map m_kind ms) -> works c f k = true) ->
  stores c fs ks vs -> nth_error fs i = Some f -> nth_error ks i = Some k ->
  field_methods c f = GOk ms -> only_calls (offered ms) l = true ->
  spec_run bld dflt (view_of c f) l (mk_ust k [] 0) = Some (os, mk_ust k' [] b) ->
  exists vs', lives dflt user c fs vs [Alone bld i l os] vs' /\ stores c fs (put ks i k') vs'.
Proof. exact (fun dflt user c fs ks vs bld i f ms l os k k' b Sk Wk => alone_lives dflt user c fs Sk Wk ks vs bld i f ms l os k k' b). Qed.
Print Assumptions C93_alone.

(** *** From the words of the attributes *)
(** An object that the builder made, with what its form handed out. *)
Theorem C93_built : forall ft c ss all dflt user parts post l es rs g n ks,
  struct_as ft ss (c_args c) -> Forall2 (read_as ft) all (c_input_fields c) -> cells_told ss all all parts -> sound_words ss all ->
  NoDup (map f_ident (all_fields c)) -> generated c -> has_post_build c = false ->
  form_told dflt user ss (combine (map f_ident (c_input_fields c)) all) es -> spec_forms es l blank = Some (rs, g) ->
  nth_error rs n = Some (Handed ks) ->
  exists qs b o, build_run dflt user c post l new_builder = Some (qs, b) /\ nth_error qs n = Some (BDone o, []) /\
    forall scenes vs', lives dflt user c (builder_input c) (map snd o) scenes vs' -> Forall (makes_sense dflt parts) scenes ->
    exists ks', tale dflt parts (map snd ks) scenes ks' /\ stores c (builder_input c) ks' vs'.
Proof.
  exact (fun ft c ss all dflt user parts post l es rs g n ks HS HF Ce So =>
    w_built ft c ss all HS HF dflt user parts Ce So post l es rs g n ks).
Qed.
Print Assumptions C93_built.
(** One that Default made. *)
Theorem C93_default : forall ft c ss all dflt user parts bld alive o ks scenes vs',
  struct_as ft ss (c_args c) -> Forall2 (read_as ft) all (c_input_fields c) -> cells_told ss all all parts -> sound_words ss all ->
  default_object bld alive dflt user c (all_fields c) = Some o -> defaults_told dflt user ss all ks ->
  lives dflt user c (builder_input c) (cell_values (all_fields c) o) scenes vs' -> Forall (makes_sense dflt parts) scenes ->
  exists ks', tale dflt parts ks scenes ks' /\ stores c (builder_input c) ks' vs'.
Proof.
  exact (fun ft c ss all dflt user parts bld alive o ks scenes vs' HS HF Ce So =>
    w_default ft c ss all HS HF dflt user parts Ce So bld alive o ks scenes vs').
Qed.
Print Assumptions C93_default.
(** One that was read from a document, up to the document it is written to. *)
Theorem C93_documents : forall ft c ss all dflt user parts named given bld bld' alive alive' ps ps' d o,
  struct_as ft ss (c_args c) -> Forall2 (read_as ft) all (c_input_fields c) -> cells_told ss all all parts -> sound_words ss all ->
  with_serde ss -> NoDup (map f_ident (all_fields c)) -> from_compiles c -> into_compiles c ->
  defaults_make_sense named (fun f => given (f_ident f)) c ->
  places_told dflt user named given bld ss all (map f_ident (c_input_fields c)) ps ->
  places_told dflt user named given bld' ss all (map f_ident (c_input_fields c)) ps' ->
  deserialise bld alive dflt user named (fun f => given (f_ident f)) c d = RDone o ->
  exists r js, spec_reads (map slot_at ps) d = Some r /\
    let ks := map (fun p => comes_in (fst p) (snd p)) (combine ps r) in
    rewritten all ks js ks /\
    forall scenes vs', lives dflt user c (builder_input c) (cell_values (all_fields c) o) scenes vs' -> Forall (makes_sense dflt parts) scenes ->
    exists js' ks', tale dflt parts js scenes js' /\ rewritten all ks js' ks' /\
      serialise bld' alive' dflt user c (with_cells (all_fields c) o vs') =
        if existsb (fun p => run_panics (fst p) (snd p)) (combine ps' ks') then WPanic
        else SerdeModel.WDone (doc_out (combine ps' ks')) (runs_out (combine ps' ks')).
Proof.
  exact (fun ft c ss all dflt user parts named given bld bld' alive alive' ps ps' d o HS HF Ce So SD D =>
    w_documents ft c ss all HS HF dflt user parts Ce So named given bld bld' SD D alive alive' ps ps' d o).
Qed.
Print Assumptions C93_documents.

(** ** A case *)
(** [#[fxstruct(sync, builder, serde, default)]] and the fields [#[fieldx(lazy, get, clearer)]],
    [#[fieldx(lock, reader, writer, set, get)]], [#[fieldx(get, default(5))]] and [#[fieldx(skip)]]. *)
Definition l_struct : list tok := [ww "sync"; cc; ww "builder"; cc; ww "serde"; cc; ww "default"].
Definition l_a : list tok := [ww "lazy"; cc; ww "get"; cc; ww "clearer"].
Definition l_b : list tok := [ww "lock"; cc; ww "reader"; cc; ww "writer"; cc; ww "set"; cc; ww "get"].
Definition l_c : list tok := [ww "get"; cc; ww "default"; pp [n5]].
Definition l_d : list tok := [ww "skip"].
Definition l_sources : list source := map (fun t => mk_source [FList t] (terminated t ++ [])) [l_a; l_b; l_c; l_d].
Definition l_fields : list field := flat_map (fun p => w_read (fst p) (snd p)) (combine ["a"; "b"; "c"; "d"] l_sources).
Definition l_ctx : sctx := Eval vm_compute in
  match read_struct every_feature l_struct with
  | Some s => mk_sctx "S" "pub" s l_fields
  | None => w_ctx
  end.
Definition l_field (n : nat) : field := nth n (c_input_fields l_ctx) (bare_field "none" "T").
Lemma l_struct_as : struct_as every_feature (terminated l_struct) (c_args l_ctx).
Proof. exists l_struct. split; [apply w_arguments; reflexivity|vm_compute; reflexivity]. Qed.
Lemma l_read_as : Forall2 (read_as every_feature) l_sources (c_input_fields l_ctx).
Proof.
  apply Forall2_cons; [apply (m_row _ "a"); [reflexivity|vm_compute; reflexivity]|].
  apply Forall2_cons; [apply (m_row _ "b"); [reflexivity|vm_compute; reflexivity]|].
  apply Forall2_cons; [apply (m_row _ "c"); [reflexivity|vm_compute; reflexivity]|].
  apply Forall2_cons; [apply (m_row _ "d"); [reflexivity|vm_compute; reflexivity]|].
  apply Forall2_nil.
Qed.
Definition l_parts : list (view * bool) := map (fun f => (view_of l_ctx f, is_async l_ctx f)) (builder_input l_ctx).
Definition l_shared (vs : list RustSem.val) : list part :=
  flat_map (fun x => match part_from l_ctx (fst x) (snd x) with Some p => [p] | None => [] end) (combine (builder_input l_ctx) vs).
Definition thirteen (n : nat) : outcome nat nat := BOk 13.
(** The owner sets b; threads share the object: the builder of a reads b and c while
    another thread waits to set b; the owner reads and clears a. *)
Definition l_let_go (a : nat) : list oact := [OAct 0 (MUse a LetGo)] ++ gos 0 1 a ++ steps_of 0 2 a ++ gos 0 1 a.
Definition l_plan : list oact := errand ++ errand_rest ++ l_let_go 1 ++ l_let_go 2.
Definition l_seen (c : nat) : list (nat * hist) :=
  [(0, HCall 1 KAccessor 0); (1, HCall 1 KReader 0); (1, HCall 2 KSetter 5); (2, HCall 3 KAccessor 0);
   (1, HRet 1 (ORet (AnVal 4))); (2, HRet 3 (ORet (AnVal c))); (2, HCall 1 KAccessor 0); (2, HRet 1 (ORet (AnVal c)));
   (1, HUse 1 LetGo); (1, HRet 1 ODone); (0, HCall 2 KAccessor 0); (1, HRet 2 (ORet (AnVal 4)));
   (0, HRet 1 (ORet (AnVal 13))); (0, HRet 2 (ORet (AnVal 13)));
   (0, HUse 1 LetGo); (0, HRet 1 ODone); (0, HUse 2 LetGo); (0, HRet 2 ODone)].
Definition l_scenes (b c : nat) : list scene :=
  [Alone thirteen 1 [ACall KSetter 4 Release] [ORet (AnVal b)];
   Together (fun _ => thirteen) (l_seen c);
   Alone thirteen 0 [ACall KAccessor 0 Release; ACall KClearer 0 Release] [ORet (AnVal 13); ORet (AnOpt (Some 13))]].
Definition l_first (b c : nat) : list RustSem.val := [RustSem.VProxy false None; RustSem.VLock false (RustSem.VT b); RustSem.VT c].
Lemma l_lives b c : lives 3 five l_ctx (builder_input l_ctx) (l_first b c) (l_scenes b c) (l_first 5 c).
Proof.
  assert (B : builder_input l_ctx = [l_field 0; l_field 1; l_field 2]) by (vm_compute; reflexivity). rewrite B.
  eapply lv_alone with (f := l_field 1); [reflexivity|reflexivity|vm_compute; reflexivity|vm_compute; reflexivity|vm_compute; reflexivity|reflexivity|].
  eapply lv_together with (ps := l_shared (l_first 4 c)) (l := l_plan) (vs1 := [RustSem.VProxy false (Some (RustSem.VT 13)); RustSem.VLock false (RustSem.VT 5); RustSem.VT c]).
  - vm_compute. reflexivity.
  - vm_compute. reflexivity.
  - intros i n x. destruct i as [|[|[|i]]]; destruct n as [|n]; vm_compute; try discriminate; try (destruct n; discriminate). congruence.
  - intros i fs a H. destruct i as [|[|[|i]]]; [| | |destruct i; discriminate H]; injection H as <-; destruct a as [|[|[|[|a]]]]; reflexivity.
  - vm_compute. reflexivity.
  - eapply lv_alone with (f := l_field 0); [reflexivity|reflexivity|vm_compute; reflexivity|vm_compute; reflexivity|vm_compute; reflexivity|reflexivity|].
    apply lv_end.
Qed.

Lemma l_cells : cells_told (terminated l_struct) l_sources l_sources l_parts.
Proof. apply (w_cells every_feature l_ctx (terminated l_struct) l_sources l_struct_as l_read_as). reflexivity. Qed.
Lemma l_sound : sound_words (terminated l_struct) l_sources.
Proof.
  intros x q k I NS Q K. pose proof l_read_as as HF.
  assert (X : exists f, In f (c_input_fields l_ctx) /\ read_as every_feature x f).
  { clear - I HF. induction HF as [|y g l m R F IH]; [destruct I|]. destruct I as [<-|I]; [exists g; cbn; auto|]. destruct (IH I) as (f & A & B). exists f. cbn. auto. }
  destruct X as (f & If & R).
  assert (G : forallb (fun f => match field_methods l_ctx f with
    | GOk ms => forallb (sound_call (facts_of (cfg_of l_ctx f) (is_sync l_ctx f))) (map m_kind ms) | _ => false end) (c_input_fields l_ctx) = true)
    by (vm_compute; reflexivity).
  rewrite forallb_forall in G. specialize (G f If). destruct (field_methods l_ctx f) as [ms| |] eqn:M; try discriminate G.
  apply (w_methods every_feature l_ctx (terminated l_struct) l_sources l_struct_as l_read_as x f R k ms M) in K.
  apply (w_facts every_feature l_ctx (terminated l_struct) l_struct_as x f R l_sources l_read_as) in Q. subst q.
  rewrite forallb_forall in G. apply G, K.
Qed.
Lemma l_sense b c : Forall (makes_sense 3 l_parts) (l_scenes b c).
Proof.
  apply Forall_cons; [|apply Forall_cons; [exact I|apply Forall_cons; [|apply Forall_nil]]]; intros r k E H; injection E as <-; destruct k;
    try discriminate H; vm_compute; discriminate.
Qed.
Definition l_entries : list entry := entries 3 five l_ctx.
Definition l_named (t : string) : option nat := None.
Definition l_places : list DocSpec.place := map (DocProofs.place_of l_ctx seven 3 five l_named l_named) (all_fields l_ctx).
Definition l_document : document := [("a", None); ("b", Some 3); ("c", Some 9)].
(** The hypotheses of C93_life, C93_settles and C93_alone, for that life. *)
Example C93_case :
  (forall f, In f (builder_input l_ctx) -> f_is_skipped f = false) /\
  (forall f ms k, In f (builder_input l_ctx) -> field_methods l_ctx f = GOk ms -> In k (map m_kind ms) -> works l_ctx f k = true) /\
  lives 3 five l_ctx (builder_input l_ctx) (l_first 3 9) (l_scenes 3 9) (l_first 5 9) /\
  stores l_ctx (builder_input l_ctx) [None; Some 3; Some 9] (l_first 3 9) /\
  Forall (makes_sense 3 (map (fun f => (view_of l_ctx f, is_async l_ctx f)) (builder_input l_ctx))) (l_scenes 3 9) /\
  (forall f, In f (builder_input l_ctx) -> exists ms, field_methods l_ctx f = GOk ms) /\
  (forall f, In f (builder_input l_ctx) -> is_sync l_ctx f = true) /\
  (exists s h t, object_run 3 five (l_shared (l_first 4 9)) l_plan = Some (s, h, t) /\ all_over s) /\
  (* before the guards are let go it is not over *)
  (exists s h t, object_run 3 five (l_shared (l_first 4 9)) (errand ++ errand_rest) = Some (s, h, t) /\ ~ all_over s /\
    nth_error (map (fun x => at_rest (p_store (fst x)) (snd x)) (combine (l_shared (l_first 4 9)) (o_fields s))) 0 = Some None) /\
  spec_run thirteen 3 (view_of l_ctx (l_field 1)) [ACall KSetter 4 Release] (mk_ust (Some 3) [] 0) = Some ([ORet (AnVal 3)], mk_ust (Some 4) [] 0).
Proof.
  assert (B : builder_input l_ctx = [l_field 0; l_field 1; l_field 2]) by (vm_compute; reflexivity).
  split. { apply w_unskipped. }
  split. { apply (w_works every_feature l_ctx (terminated l_struct) l_sources l_struct_as l_read_as l_sound). }
  split; [apply l_lives|]. split; [rewrite B; stored|]. split; [apply l_sense|].
  split. { rewrite B. intros f [<-|[<-|[<-|[]]]]; eexists; vm_compute; reflexivity. }
  split. { rewrite B. intros f [<-|[<-|[<-|[]]]]; vm_compute; reflexivity. }
  split. { do 3 eexists. split; [vm_compute; reflexivity|].
    intros i fs a H. destruct i as [|[|[|i]]]; [| | |destruct i; discriminate H]; injection H as <-; destruct a as [|[|[|[|a]]]]; reflexivity. }
  split; [|vm_compute; reflexivity].
  do 3 eexists. split; [vm_compute; reflexivity|]. split; [|vm_compute; reflexivity].
  intros H. specialize (H 0 _ 1 eq_refl). vm_compute in H. discriminate H.
Qed.
(** Of C93_built: the builder is given b only. *)
Example C93_built_case :
  struct_as every_feature (terminated l_struct) (c_args l_ctx) /\ Forall2 (read_as every_feature) l_sources (c_input_fields l_ctx) /\
  cells_told (terminated l_struct) l_sources l_sources l_parts /\ sound_words (terminated l_struct) l_sources /\
  NoDup (map f_ident (all_fields l_ctx)) /\ generated l_ctx /\ has_post_build l_ctx = false /\
  form_told 3 five (terminated l_struct) (combine (map f_ident (c_input_fields l_ctx)) l_sources) l_entries /\
  (exists g, spec_forms l_entries [BBuild; BSet "b" 3; BBuild] blank =
    Some ([Refused "b"; Handed [("a", None); ("b", Some 3); ("c", Some 5)]], g)) /\
  option_map fst (build_run 3 five l_ctx (fun _ => BPanic) [BBuild; BSet "b" 3; BBuild] new_builder) =
    Some [(BMissing "b", []); (BDone (combine ["a"; "b"; "c"] (l_first 3 5)), [])] /\
  lives 3 five l_ctx (builder_input l_ctx) (l_first 3 5) (l_scenes 3 5) (l_first 5 5) /\ Forall (makes_sense 3 l_parts) (l_scenes 3 5).
Proof.
  split; [exact l_struct_as|]. split; [exact l_read_as|]. split; [exact l_cells|]. split; [exact l_sound|].
  split; [nodup|]. split.
  { assert (B : builder_input l_ctx = [l_field 0; l_field 1; l_field 2]) by (vm_compute; reflexivity).
    unfold generated. rewrite B. intros f [<-|[<-|[<-|[]]]]; eexists; eexists; split; vm_compute; reflexivity. }
  split; [vm_compute; reflexivity|].
  split; [apply (w_form every_feature l_ctx (terminated l_struct) l_sources l_struct_as l_read_as); reflexivity|].
  split; [eexists; vm_compute; reflexivity|]. split; [vm_compute; reflexivity|]. split; [apply l_lives|apply l_sense].
Qed.
(** Of C93_default and C93_documents: what is built meanwhile is written, or built again. *)
Example C93_documents_case :
  default_object seven true 3 five l_ctx (all_fields l_ctx) = Some (l_first 3 5 ++ [RustSem.VT 3]) /\
  cell_values (all_fields l_ctx) (l_first 3 5 ++ [RustSem.VT 3]) = l_first 3 5 /\
  defaults_told 3 five (terminated l_struct) l_sources [None; Some 3; Some 5] /\
  with_serde (terminated l_struct) /\ from_compiles l_ctx /\ into_compiles l_ctx /\
  defaults_make_sense l_named (fun f => l_named (f_ident f)) l_ctx /\
  places_told 3 five l_named l_named seven (terminated l_struct) l_sources (map f_ident (c_input_fields l_ctx)) l_places /\
  deserialise seven true 3 five l_named (fun f => l_named (f_ident f)) l_ctx l_document = RDone (l_first 3 9 ++ [RustSem.VT 3]) /\
  cell_values (all_fields l_ctx) (l_first 3 9 ++ [RustSem.VT 3]) = l_first 3 9 /\
  rewritten l_sources [None; Some 3; Some 9; Some 3] [None; Some 5; Some 9] [None; Some 5; Some 9; Some 3] /\
  with_cells (all_fields l_ctx) (l_first 3 9 ++ [RustSem.VT 3]) (l_first 5 9) = l_first 5 9 ++ [RustSem.VT 3] /\
  serialise seven true 3 five l_ctx (l_first 5 9 ++ [RustSem.VT 3]) = SerdeModel.WDone [("a", Some 7); ("b", Some 5); ("c", Some 9)] [1].
Proof.
  split; [vm_compute; reflexivity|]. split; [vm_compute; reflexivity|].
  split. { apply (w_defaults every_feature l_ctx (terminated l_struct) l_sources l_struct_as l_read_as). vm_compute. reflexivity. }
  assert (SD : with_serde (terminated l_struct)).
  { apply (w_with_serde every_feature l_ctx (terminated l_struct) l_struct_as). vm_compute. reflexivity. }
  split; [exact SD|]. split; [from_ok|]. split; [into_ok|]. split; [sense|].
  split. { apply (w_places every_feature l_ctx (terminated l_struct) l_sources l_struct_as l_read_as seven 3 five l_named l_named l_places SD). reflexivity. }
  split; [vm_compute; reflexivity|]. split; [vm_compute; reflexivity|]. split; [|split; vm_compute; reflexivity].
  pose proof l_read_as as HF.
  assert (G : forall n x f, nth_error l_sources n = Some x -> nth_error (c_input_fields l_ctx) n = Some f -> read_as every_feature x f).
  { clear. intros n. generalize l_read_as. generalize l_sources, (c_input_fields l_ctx). intros l m H. revert n. induction H; intros [|n] z f E1 E2; try discriminate; cbn in *;
      [congruence|eauto]. }
  assert (K : forall n x f, nth_error l_sources n = Some x -> nth_error (c_input_fields l_ctx) n = Some f -> (f_skip f = true <-> skipped x)).
  { intros n x f E1 E2. apply (f_skipped every_feature x f (G n x f E1 E2)). }
  repeat apply rw_cell; try apply rw_skip; try apply rw_nil.
  - rewrite <- (K 0 _ (l_field 0) eq_refl eq_refl). discriminate.
  - rewrite <- (K 1 _ (l_field 1) eq_refl eq_refl). discriminate.
  - rewrite <- (K 2 _ (l_field 2) eq_refl eq_refl). discriminate.
  - rewrite <- (K 3 _ (l_field 3) eq_refl eq_refl). reflexivity.
Qed.
