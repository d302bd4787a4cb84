(** Property C94: the life of an object on memory that is not sequentially consistent. *)
From Coq Require Import List Bool String Arith Lia.
From Verif Require Import ProxyTypes ArgsModel CtxModel ArgsSpec TokenSpec ParseInput ParseModel ParseSpec ParseForms GrammarSpec GrammarProps
  ArgsFixtures ArgsProps CodegenProps GuardCell RustAst CommonGen StructGen CodegenSpec FieldSpec FieldRun FieldStruct FieldProps
  WrittenSpec WrittenProofs WrittenNames WrittenProps SignSpec SignTypes SignMethods SignProps MadeSpec MadeProofs MadeSerde MadeProps
  BuilderSpec BuilderModel BehaveSpec BehaveProofs SerdeSpec SerdeModel SerdeProps DocSpec DocProofs DocProps
  ThreadSpec ThreadModel ThreadProps LockedModel LockedProps ObjectSpec ObjectModel ObjectParts ObjectRecord ObjectWords ObjectProps EndSpec
  LifeSpec LifeModel LifeRecord LifeWords LifeProps WeakObjectSpec WeakObjectModel WeakObjectFresh WeakObjectProps
  WeakLifeSpec WeakLifeModel WeakLifeProofs WeakLifeRecord WeakLifeWords.
Import ListNotations.
Open Scope string_scope.
Open Scope list_scope.

(** ** C94 *)
(** Whatever the loads get, in all of the life of an object there is no data race, neither
    among its users nor with its owner; what is seen is what owners and users of a record of
    cells can see, but for predicates of lazy fields while it is shared; and in the end the
    fields store what the cells then hold. *)
Theorem C94_life : forall dflt user c fs vs scenes vs' r ks,
  (forall f, In f fs -> f_is_skipped f = false) ->
  (forall f ms k, In f fs -> field_methods c f = GOk ms -> In k (map m_kind ms) -> works c f k = true) ->
  wlives dflt user c fs vs scenes vs' r -> stores c fs ks vs ->
  let parts := map (fun f => (view_of c f, is_async c f)) fs in
  Forall (makes_sense dflt parts) scenes ->
  r = false /\ exists scenes' ks', Forall2 (scene_as parts) scenes scenes' /\ tale dflt parts ks scenes' ks' /\ stores c fs ks' vs'.
Proof. exact (fun dflt user c fs vs scenes vs' r ks Sk Wk => weak_life dflt user c fs Sk Wk vs scenes vs' r ks). Qed.
Print Assumptions C94_life.
(** Unless such a predicate has answered, the record explains exactly what was seen. *)
Theorem C94_exact : forall dflt user c fs vs scenes vs' r ks,
  (forall f, In f fs -> f_is_skipped f = false) ->
  (forall f ms k, In f fs -> field_methods c f = GOk ms -> In k (map m_kind ms) -> works c f k = true) ->
  wlives dflt user c fs vs scenes vs' r -> stores c fs ks vs ->
  let parts := map (fun f => (view_of c f, is_async c f)) fs in
  Forall (makes_sense dflt parts) scenes -> Forall (unasked parts) scenes ->
  exists ks', tale dflt parts ks scenes ks' /\ stores c fs ks' vs'.
Proof. exact (fun dflt user c fs vs scenes vs' r ks Sk Wk => weak_life_exact dflt user c fs Sk Wk vs scenes vs' r ks). Qed.
Print Assumptions C94_exact.
(** When all users are done and the owner has joined them, there is something to be found in
    each field, and only one thing. *)
Theorem C94_found : forall dflt user c fs ks vs ps l w h t bld who,
  (forall f, In f fs -> f_is_skipped f = false) ->
  (forall f ms k, In f fs -> field_methods c f = GOk ms -> In k (map m_kind ms) -> works c f k = true) ->
  stores c fs ks vs -> map (fun x => part_from c (fst x) (snd x)) (combine fs vs) = map Some ps ->
  weak_object_run dflt user ps l = Some (w, h, t) -> (forall i, oracle (bld i) (at_field i t)) -> all_over (shadow w) -> incl (took_part l) who ->
  let known := gathered who (w_fields w) in
  exists vs1 rs, regained known ps (w_fields w) vs1 rs /\
    forall vs2 rs2, regained known ps (w_fields w) vs2 rs2 -> vs2 = vs1 /\ forall r, In r rs2 -> r = false.
Proof.
  exact (fun dflt user c fs ks vs ps l w h t bld who Sk Wk St Pf Run => found_again dflt user c fs Sk Wk ks vs ps l w h t bld who St Pf Run).
Qed.
Print Assumptions C94_found.
(** Who joins all users of an object knows every write and every access there was. *)
Theorem C94_known : forall dflt user ps l w h t who, weak_object_run dflt user ps l = Some (w, h, t) -> incl (took_part l) who ->
  forall g m, In g (w_fields w) -> In m (flag_writes g ++ value_writes g ++ accesses g) -> In m (gathered who (w_fields w)).
Proof. exact joined_know. Qed.
Print Assumptions C94_known.

(** *** From the words of the attributes *)
(** As C93_built, C93_default and C93_documents. *)
Theorem C94_built : forall ft c ss all dflt user parts post l es rs g n ks,
  struct_as ft ss (c_args c) -> Forall2 (read_as ft) all (c_input_fields c) -> cells_told ss all all parts -> sound_words ss all ->
  NoDup (map f_ident (all_fields c)) -> generated c -> has_post_build c = false ->
  form_told dflt user ss (combine (map f_ident (c_input_fields c)) all) es -> spec_forms es l blank = Some (rs, g) ->
  nth_error rs n = Some (Handed ks) ->
  exists qs b o, build_run dflt user c post l new_builder = Some (qs, b) /\ nth_error qs n = Some (BDone o, []) /\
    forall scenes vs' r, wlives dflt user c (builder_input c) (map snd o) scenes vs' r -> Forall (makes_sense dflt parts) scenes ->
    r = false /\ exists scenes' ks', Forall2 (scene_as parts) scenes scenes' /\ tale dflt parts (map snd ks) scenes' ks' /\ stores c (builder_input c) ks' vs'.
Proof.
  exact (fun ft c ss all dflt user parts post l es rs g n ks HS HF Ce So =>
    ww_built ft c ss all HS HF dflt user parts Ce So post l es rs g n ks).
Qed.
Print Assumptions C94_built.
Theorem C94_default : forall ft c ss all dflt user parts bld alive o ks scenes vs' r,
  struct_as ft ss (c_args c) -> Forall2 (read_as ft) all (c_input_fields c) -> cells_told ss all all parts -> sound_words ss all ->
  default_object bld alive dflt user c (all_fields c) = Some o -> defaults_told dflt user ss all ks ->
  wlives dflt user c (builder_input c) (cell_values (all_fields c) o) scenes vs' r -> Forall (makes_sense dflt parts) scenes ->
  r = false /\ exists scenes' ks', Forall2 (scene_as parts) scenes scenes' /\ tale dflt parts ks scenes' ks' /\ stores c (builder_input c) ks' vs'.
Proof.
  exact (fun ft c ss all dflt user parts bld alive o ks scenes vs' r HS HF Ce So =>
    ww_default ft c ss all HS HF dflt user parts Ce So bld alive o ks scenes vs' r).
Qed.
Print Assumptions C94_default.
Theorem C94_documents : forall ft c ss all dflt user parts named given bld bld' alive alive' ps ps' d o,
  struct_as ft ss (c_args c) -> Forall2 (read_as ft) all (c_input_fields c) -> cells_told ss all all parts -> sound_words ss all ->
  with_serde ss -> NoDup (map f_ident (all_fields c)) -> from_compiles c -> into_compiles c ->
  defaults_make_sense named (fun f => given (f_ident f)) c ->
  places_told dflt user named given bld ss all (map f_ident (c_input_fields c)) ps ->
  places_told dflt user named given bld' ss all (map f_ident (c_input_fields c)) ps' ->
  deserialise bld alive dflt user named (fun f => given (f_ident f)) c d = RDone o ->
  exists r js, spec_reads (map slot_at ps) d = Some r /\
    let ks := map (fun p => comes_in (fst p) (snd p)) (combine ps r) in
    rewritten all ks js ks /\
    forall scenes vs' raced, wlives dflt user c (builder_input c) (cell_values (all_fields c) o) scenes vs' raced -> Forall (makes_sense dflt parts) scenes ->
    raced = false /\ exists scenes' js' ks', Forall2 (scene_as parts) scenes scenes' /\ tale dflt parts js scenes' js' /\ rewritten all ks js' ks' /\
      serialise bld' alive' dflt user c (with_cells (all_fields c) o vs') =
        if existsb (fun p => run_panics (fst p) (snd p)) (combine ps' ks') then WPanic
        else SerdeModel.WDone (doc_out (combine ps' ks')) (runs_out (combine ps' ks')).
Proof.
  exact (fun ft c ss all dflt user parts named given bld bld' alive alive' ps ps' d o HS HF Ce So =>
    ww_documents ft c ss all HS HF dflt user parts Ce So named given bld bld' alive alive' ps ps' d o).
Qed.
Print Assumptions C94_documents.
(** Joining is needed for just this: taking an object back is free of races exactly if the
    owner knows of each access to the contents, be it a read or a write (C94_case has an owner
    who does not). *)
Theorem C94_taken_back : forall k ps gs vs rs, regained k ps gs vs rs -> forall n g r, nth_error gs n = Some g -> nth_error rs n = Some r ->
  (r = false <-> forall m, In m (accesses g) -> In m k).
Proof.
  intros k ps gs vs rs R. induction R as [|p ps g gs i j v r vs rs W R IH]; intros n g0 r0 G E; [destruct n; discriminate G|].
  destruct n as [|n]; [injection G as <-; injection E as <-; exact (wrest_races k i j _ _ _ _ W)|exact (IH n g0 r0 G E)].
Qed.
Print Assumptions C94_taken_back.

(** ** Cases *)
(** The two fields of C91: a predicate says that a is not set although it is, b is set; then
    the owner clears a.  Only they who have joined all users find what these left. *)
Definition wl_ctx : sctx := ctx_of sync_s (map fst signal).
Definition wl_field (n : nat) : field := nth n (map fst signal) (bare_field "none" "T").
Definition wl_left : list wact :=
  [WAct 1 (MInvoke 1 KSetter 5) 0 0; go 1 1 0 0; go 1 1 0 1; go 1 1 0 0; go 1 1 0 0] ++
  [WAct 0 (MUse 1 LetGo) 0 0; go 0 1 0 0; on 0 1 0 0; on 0 1 0 0; go 0 1 0 0].
Definition wl_plan : list wact := built_by_1 ++ asked_by_2 0 ++ wl_left.
Definition wl_seen (b : bool) : list (nat * hist) :=
  [(0, HCall 1 KAccessor 0); (0, HRet 1 (ORet (AnVal 10))); (0, HCall 2 KPredicate 0); (0, HRet 2 (ORet (AnBool b)));
   (1, HCall 1 KSetter 5); (1, HRet 1 (ORet (AnVal 4))); (0, HUse 1 LetGo); (0, HRet 1 ODone)].
Definition ten (n : nat) : outcome nat nat := BOk 10.
Definition wl_scenes (b : bool) : list scene :=
  [Together (fun _ => ten) (wl_seen b); Alone ten 0 [ACall KPredicate 0 Release; ACall KAccessor 0 Release] [ORet (AnBool true); ORet (AnVal 10)]].
Definition wl_values (a b : nat) (s : bool) : list RustSem.val :=
  [RustSem.VProxy false (if s then Some (RustSem.VT a) else None); RustSem.VLock false (RustSem.VT b)].
Definition wl_users : list (nat * aid) := [(0, 1); (0, 2); (1, 1)].
Lemma raced_as : forall dflt user c fs vs scenes vs' r r', wlives dflt user c fs vs scenes vs' r' -> r' = r -> wlives dflt user c fs vs scenes vs' r.
Proof. intros dflt user c fs vs scenes vs' r r' H <-. exact H. Qed.
Lemma wl_took : incl (took_part wl_plan) wl_users.
Proof. intros x I. vm_compute in I. vm_compute. repeat (destruct I as [<-|I]; [auto|]). destruct I. Qed.
Lemma wl_lives : wlives 0 (fun _ => 0) wl_ctx (map fst signal) (wl_values 0 4 false) (wl_scenes false) (wl_values 10 5 true) false.
Proof.
  assert (B : map fst signal = [wl_field 0; wl_field 1]) by reflexivity. rewrite B.
  eapply raced_as; [eapply (wv_together 0 (fun _ => 0) wl_ctx [wl_field 0; wl_field 1] (wl_values 0 4 false) (fun _ => ten) (wl_seen false) signal_parts wl_plan)
    with (vs1 := wl_values 10 5 true) (rs := [false; false]) (who := wl_users) (r := false)|].
  - vm_compute. reflexivity.
  - vm_compute. reflexivity.
  - intros i n x. destruct i as [|[|i]]; destruct n as [|n]; vm_compute; try discriminate; try (destruct n; discriminate). congruence.
  - intros i fs a H. destruct i as [|[|i]]; [| |destruct i; discriminate H]; injection H as <-; destruct a as [|[|[|a]]]; reflexivity.
  - exact wl_took.
  - eapply rg_field with (i := 1) (j := 1); [vm_compute; reflexivity|]. eapply rg_field with (i := 1) (j := 1); [vm_compute; reflexivity|]. apply rg_nil.
  - eapply wv_alone with (f := wl_field 0); [reflexivity|reflexivity|vm_compute; reflexivity|vm_compute; reflexivity|vm_compute; reflexivity|reflexivity|].
    apply wv_end.
  - vm_compute. reflexivity.
Qed.
Example C94_case :
  (forall f, In f (map fst signal) -> f_is_skipped f = false) /\
  (forall f ms k, In f (map fst signal) -> field_methods wl_ctx f = GOk ms -> In k (map m_kind ms) -> works wl_ctx f k = true) /\
  wlives 0 (fun _ => 0) wl_ctx (map fst signal) (wl_values 0 4 false) (wl_scenes false) (wl_values 10 5 true) false /\
  stores wl_ctx (map fst signal) [None; Some 4] (wl_values 0 4 false) /\
  Forall (makes_sense 0 (map (fun f => (view_of wl_ctx f, is_async wl_ctx f)) (map fst signal))) (wl_scenes false) /\
  scene_as (map (fun f => (view_of wl_ctx f, is_async wl_ctx f)) (map fst signal)) (Together (fun _ => ten) (wl_seen false)) (Together (fun _ => ten) (wl_seen true)) /\
  incl (took_part wl_plan) wl_users /\
  exists w h t, weak_object_run 0 (fun _ => 0) signal_parts wl_plan = Some (w, h, t) /\ all_over (shadow w) /\
    regained (gathered wl_users (w_fields w)) signal_parts (w_fields w) (wl_values 10 5 true) [false; false] /\
    (* one user is not joined *)
    regained (gathered [(0, 2)] (w_fields w)) signal_parts (w_fields w) (wl_values 10 4 false) [true; true] /\
    regained (gathered [(0, 2); (1, 1)] (w_fields w)) signal_parts (w_fields w) (wl_values 10 5 false) [true; false].
Proof.
  destruct signal_meets as (A & _ & C).
  split. { intros f I. apply in_map_iff in I as ([g o] & <- & I). exact (A g o I). }
  split. { intros f ms k I. apply in_map_iff in I as ([g o] & <- & I). exact (C g o ms k I). }
  split; [exact wl_lives|]. split; [stored|].
  split. { apply Forall_cons; [exact I|]. apply Forall_cons; [|apply Forall_nil]. intros r k E H. injection E as <-. destruct k; vm_compute; discriminate. }
  split. { apply sc_together. unfold wl_seen. repeat (apply Forall2_cons; [first [apply seen_same|eapply seen_predicate; vm_compute; reflexivity]|]). apply Forall2_nil. }
  split; [exact wl_took|].
  do 3 eexists. split; [vm_compute; reflexivity|]. split.
  { intros i fs a H. destruct i as [|[|i]]; [| |destruct i; discriminate H]; injection H as <-; destruct a as [|[|[|a]]]; reflexivity. }
  split; [|split].
  - eapply rg_field with (i := 1) (j := 1); [vm_compute; reflexivity|]. eapply rg_field with (i := 1) (j := 1); [vm_compute; reflexivity|]. apply rg_nil.
  - eapply rg_field with (i := 0) (j := 0); [vm_compute; reflexivity|]. eapply rg_field with (i := 0) (j := 0); [vm_compute; reflexivity|]. apply rg_nil.
  - eapply rg_field with (i := 0) (j := 0); [vm_compute; reflexivity|]. eapply rg_field with (i := 0) (j := 1); [vm_compute; reflexivity|]. apply rg_nil.
Qed.
(** The struct of C93_built_case and C93_documents_case on weak memory (their other
    hypotheses are met there); nothing is asked of a predicate, so this is one of C94_exact too. *)
Definition wd_plan : list wact := built_by_1 ++ wl_left.
Definition wd_seen : list (nat * hist) :=
  [(0, HCall 1 KAccessor 0); (0, HRet 1 (ORet (AnVal 10))); (1, HCall 1 KSetter 5); (1, HRet 1 (ORet (AnVal 3))); (0, HUse 1 LetGo); (0, HRet 1 ODone)].
Definition wd_scenes : list scene := [Together (fun _ => ten) wd_seen; Alone ten 0 [ACall KClearer 0 Release] [ORet (AnOpt (Some 10))]].
Example C94_written_case : forall c,
  wlives 3 five l_ctx (builder_input l_ctx) (l_first 3 c) wd_scenes (l_first 5 c) false /\ Forall (makes_sense 3 l_parts) wd_scenes /\
  Forall (unasked l_parts) wd_scenes.
Proof.
  intros c. assert (B : builder_input l_ctx = [l_field 0; l_field 1; l_field 2]) by (vm_compute; reflexivity). rewrite B. split; [|split].
  - eapply raced_as; [eapply (wv_together 3 five l_ctx [l_field 0; l_field 1; l_field 2] (l_first 3 c) (fun _ => ten) wd_seen (l_shared (l_first 3 c)) wd_plan)
      with (vs1 := [RustSem.VProxy false (Some (RustSem.VT 10)); RustSem.VLock false (RustSem.VT 5); RustSem.VT c]) (rs := [false; false; false]) (who := wl_users) (r := false)|].
    + vm_compute. reflexivity.
    + vm_compute. reflexivity.
    + intros i n x. destruct i as [|[|i]]; destruct n as [|n]; vm_compute; try discriminate; try (destruct n; discriminate). congruence.
    + intros i fs a H. destruct i as [|[|[|i]]]; [| | |destruct i; discriminate H]; injection H as <-; destruct a as [|[|[|a]]]; reflexivity.
    + intros x I. vm_compute in I. vm_compute. repeat (destruct I as [<-|I]; [auto|]). destruct I.
    + eapply rg_field with (i := 1) (j := 1); [vm_compute; reflexivity|]. eapply rg_field with (i := 1) (j := 1); [vm_compute; reflexivity|].
      eapply rg_field with (i := 0) (j := 0); [vm_compute; reflexivity|]. apply rg_nil.
    + eapply wv_alone with (f := l_field 0); [reflexivity|reflexivity|vm_compute; reflexivity|vm_compute; reflexivity|vm_compute; reflexivity|reflexivity|].
      apply wv_end.
    + vm_compute. reflexivity.
  - apply Forall_cons; [exact I|]. apply Forall_cons; [|apply Forall_nil]. intros r k E H. injection E as <-. destruct k; vm_compute; discriminate.
  - apply Forall_cons; [|apply Forall_cons; [exact I|apply Forall_nil]].
    intros i a b r fl J. repeat (destruct J as [E|J]; [discriminate E|]). destruct J.
Qed.
