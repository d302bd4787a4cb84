(** Property C86: the emitted methods of a lazy field, called by any number of threads or
    tasks at a time. *)
From Coq Require Import List Bool String Arith.
From Verif Require Import ProxyTypes ArgsModel CtxModel ArgsSpec TokenSpec ParseInput ParseModel ParseSpec ParseForms GrammarSpec GrammarProps
  ArgsFixtures ArgsProps CodegenProps GuardCell RustAst RustSem CommonGen StructGen CodegenSpec FieldSpec FieldRun FieldProps
  WrittenSpec WrittenProofs WrittenNames WrittenProps SignSpec SignTypes SignMethods SignProps MadeSpec MadeProofs MadeProps BehaveSpec BehaveProofs
  ThreadSpec ThreadModel ThreadProofs ThreadWords.
Import ListNotations.
Open Scope string_scope.
Open Scope list_scope.

(** ** C86 *)
(** Whatever the schedule, what the users of the field see is what users of the cell of
    FieldSpec.v can see, one call or use of a guard at a time, with the outcomes of the
    builder that were seen; no method ever meets a value it cannot handle. *)
Theorem C86_threads : forall c f bld dflt alive ms o l th h t,
  is_sync c f = true -> is_lazy c f = true -> f_is_skipped f = false -> field_methods c f = GOk ms ->
  (s_is_ref_counted (c_args c) = true -> alive = true) -> (forall k, In k (map m_kind ms) -> works c f k = true) ->
  together (is_async c f) alive ms o l = Some (th, h, t) -> oracle bld t ->
  (exists w, wruns bld dflt (view_of c f) (is_async c f) (wstart o) h w) /\ forall a, th a <> Doing Wrong.
Proof. exact (fun c f bld dflt alive ms o l th h t Sy La Sk M Al Wk => threads c f bld dflt alive ms Sy La Sk M Al Wk o l th h t). Qed.
Print Assumptions C86_threads.
(** While a call or a use of a guard is in progress something can move, if only a builder
    which runs, or somebody keeps a guard. *)
Theorem C86_moves : forall c f alive ms o l th h t a,
  is_sync c f = true -> is_lazy c f = true -> f_is_skipped f = false -> field_methods c f = GOk ms ->
  (s_is_ref_counted (c_args c) = true -> alive = true) -> (forall k, In k (map m_kind ms) -> works c f k = true) ->
  together (is_async c f) alive ms o l = Some (th, h, t) -> th a <> Idle ->
  let next x := together (is_async c f) alive ms o (l ++ [x]) in
  (exists b, next (MGo b) <> None \/ next (MStep b) <> None) \/
  (exists b, forall out, next (MBuilt b out) <> None) \/
  (exists b g, th b = Keeping g).
Proof.
  exact (fun c f alive ms o l th h t a Sy La Sk M Al Wk H =>
    threads_move c f (seen_builds t) 0 alive ms Sy La Sk M Al Wk o l th h t a H (seen_oracle t)).
Qed.
Print Assumptions C86_moves.
(** The same from the words of the attributes. *)
Theorem C86_written : forall ft c ss all x f q bld dflt alive ms o l th h t,
  struct_as ft ss (c_args c) -> Forall2 (read_as ft) all (c_input_fields c) -> read_as ft x f -> ~ skipped x ->
  field_methods c f = GOk ms -> (on_in "rc" ss -> alive = true) ->
  facts_told ss all x q -> q_sync q = true -> q_lazy q = true -> (forall k, method_for ss all x k -> sound_call q k = true) ->
  together (q_async q) alive ms o l = Some (th, h, t) -> oracle bld t ->
  exists w, wruns bld dflt (told_view q) (q_async q) (wstart o) h w.
Proof.
  exact (fun ft c ss all x f q bld dflt alive ms o l th h t HS HF R =>
    w_threads ft c ss all HS HF x f R q bld dflt alive ms o l th h t).
Qed.
Print Assumptions C86_written.

(** Two threads ask for the value at once, a third sets it while they keep their guards and
    has to wait; then the value is cleared through a writer, and built again. *)
Definition crowd : list mact :=
  [MInvoke 1 KAccessor 0; MInvoke 2 KAccessor 0; MGo 1; MStep 1; MStep 1; MGo 2; MStep 1; MStep 1; MStep 1; MBuilt 1 (BOk 10);
   MInvoke 3 KPredicate 0; MGo 3; MStep 3; MStep 3; MGo 3; MStep 1; MStep 1; MStep 1; MStep 1; MStep 1; MStep 1; MGo 1; MStep 2;
   MStep 2; MStep 2; MStep 2; MStep 2; MGo 2; MInvoke 3 KSetter 5; MGo 3].
Definition crowd_rest : list mact :=
  [MUse 1 Look; MGo 1; MStep 1; MStep 1; MGo 1; MUse 1 LetGo; MGo 1; MStep 1; MStep 1; MGo 1; MUse 2 LetGo; MGo 2; MStep 2; MStep 2;
   MGo 2; MStep 3; MStep 3; MGo 3; MStep 3; MStep 3; MStep 3; MGo 3; MStep 3; MStep 3; MGo 3; MInvoke 1 KWriter 0; MGo 1; MStep 1;
   MStep 1; MGo 1; MUse 1 (Put None); MGo 1; MStep 1; MStep 1; MStep 1; MGo 1; MUse 1 LetGo; MGo 1; MStep 1; MStep 1; MGo 1;
   MInvoke 2 KAccessor 0; MGo 2; MStep 2; MStep 2; MStep 2; MStep 2; MStep 2; MBuilt 2 (BOk 11); MStep 2; MStep 2; MStep 2; MStep 2;
   MStep 2; MStep 2; MGo 2].
(** Tasks, some of which are dropped: one never polled, one waiting for the lock, one
    while its builder runs. *)
Definition tasks : list mact :=
  [MInvoke 1 KAccessor 0; MInvoke 2 KAccessor 0; MGo 1; MGo 1; MStep 1; MStep 1; MStep 1; MGo 2; MGo 2; MAbandon 1; MStep 1; MStep 1;
   MStep 2; MStep 2; MStep 2; MBuilt 2 (BOk 10); MStep 2; MStep 2; MStep 2; MStep 2; MStep 2; MGo 2; MInvoke 3 KSetter 5; MAbandon 3;
   MInvoke 3 KSetter 6; MGo 3; MGo 3; MAbandon 3; MStep 3; MInvoke 3 KClearer 0; MGo 3; MGo 3; MUse 2 Look; MGo 2; MStep 2; MStep 2;
   MGo 2; MUse 2 LetGo; MGo 2; MStep 2; MStep 2; MGo 2; MStep 3; MStep 3; MStep 3; MStep 3; MStep 3; MGo 3].
Definition methods_in (c : sctx) (f : field) : list mdecl := match field_methods c f with GOk ms => ms | _ => [] end.
Example C86_case :
  let f := lazy_guarded in
  let c := ctx_of sync_s [f] in
  is_sync c f = true /\ is_lazy c f = true /\ is_async c f = false /\ f_is_skipped f = false /\
  field_methods c f = GOk (methods_in c f) /\ forallb (works c f) (map m_kind (methods_in c f)) = true /\
  (exists th t, together false true (methods_in c f) None (crowd ++ crowd_rest) = Some (th,
    [HCall 1 KAccessor 0; HCall 2 KAccessor 0; HCall 3 KPredicate 0; HRet 3 (ORet (AnBool false)); HRet 1 (ORet (AnVal 10));
     HRet 2 (ORet (AnVal 10)); HCall 3 KSetter 5; HUse 1 Look; HRet 1 (ORet (AnVal 10)); HUse 1 LetGo; HRet 1 ODone; HUse 2 LetGo;
     HRet 2 ODone; HRet 3 (ORet (AnOpt (Some 10))); HCall 1 KWriter 0; HRet 1 (ORet AnWriter); HUse 1 (Put None); HRet 1 ODone;
     HUse 1 LetGo; HRet 1 ODone; HCall 2 KAccessor 0; HRet 2 (ORet (AnVal 11))], t) /\
    ends t = [BOk 10; BOk 11]) /\
  (* while the guards are kept the setter waits *)
  (exists th h t, together false true (methods_in c f) None crowd = Some (th, h, t) /\
    (exists k, th 3 = Waiting k) /\ th 1 = Keeping (mk_guard false false) /\
    together false true (methods_in c f) None (crowd ++ [MGo 3]) = None /\
    together false true (methods_in c f) None (crowd ++ [MStep 3]) = None).
Proof.
  cbn zeta. repeat (split; [vm_compute; reflexivity|]). split.
  - eexists. eexists. split; vm_compute; reflexivity.
  - eexists. eexists. eexists. split; [vm_compute; reflexivity|]. split; [eexists; vm_compute; reflexivity|].
    repeat split; vm_compute; reflexivity.
Qed.
Example C86_async_case :
  let f := lazy_guarded in
  let c := ctx_of async_s [f] in
  is_sync c f = true /\ is_lazy c f = true /\ is_async c f = true /\ f_is_skipped f = false /\
  field_methods c f = GOk (methods_in c f) /\ forallb (works c f) (map m_kind (methods_in c f)) = true /\
  exists th t, together true true (methods_in c f) None tasks = Some (th,
    [HCall 1 KAccessor 0; HCall 2 KAccessor 0; HGone 1; HRet 2 (ORet (AnVal 10)); HCall 3 KSetter 5; HGone 3; HCall 3 KSetter 6;
     HGone 3; HCall 3 KClearer 0; HUse 2 Look; HRet 2 (ORet (AnVal 10)); HUse 2 LetGo; HRet 2 ODone;
     HRet 3 (ORet (AnOpt (Some 10)))], t) /\ ends t = [BOk 10].
Proof.
  cbn zeta. repeat (split; [vm_compute; reflexivity|]). eexists. eexists. split; vm_compute; reflexivity.
Qed.
(** [#[fxstruct(sync)]] and the field [#[fieldx(lazy, set, writer, clearer, predicate)]]. *)
Definition u_struct : list tok := [ww "sync"].
Definition u_words : list tok := [ww "lazy"; cc; ww "set"; cc; ww "writer"; cc; ww "clearer"; cc; ww "predicate"].
Definition u_source : source := mk_source [FList u_words] (terminated u_words ++ []).
Definition u_ctx : sctx :=
  match read_struct every_feature u_struct with
  | Some s => mk_sctx "S" "pub" s (w_read "a" u_source)
  | None => w_ctx
  end.
Definition u_field : field := nth 0 (c_input_fields u_ctx) (bare_field "none" "T").
Definition u_facts : facts := facts_of (cfg_of u_ctx u_field) (is_sync u_ctx u_field).
Example C86_written_case :
  struct_as every_feature (terminated u_struct) (c_args u_ctx) /\
  Forall2 (read_as every_feature) [u_source] (c_input_fields u_ctx) /\ read_as every_feature u_source u_field /\ ~ skipped u_source /\
  field_methods u_ctx u_field = GOk (methods_in u_ctx u_field) /\
  facts_told (terminated u_struct) [u_source] u_source u_facts /\ q_sync u_facts = true /\ q_lazy u_facts = true /\ q_async u_facts = false /\
  (forall k, method_for (terminated u_struct) [u_source] u_source k -> sound_call u_facts k = true) /\
  (exists th h t, together false true (methods_in u_ctx u_field) None (crowd ++ crowd_rest) = Some (th, h, t) /\
    ends t = [BOk 10; BOk 11] /\ In (HRet 2 (ORet (AnVal 11))) h).
Proof.
  assert (HS : struct_as every_feature (terminated u_struct) (c_args u_ctx)).
  { exists u_struct. split; [apply w_arguments; reflexivity|vm_compute; reflexivity]. }
  assert (HF : Forall2 (read_as every_feature) [u_source] (c_input_fields u_ctx)).
  { apply Forall2_cons; [apply (m_row _ "a"); [reflexivity|vm_compute; reflexivity]|apply Forall2_nil]. }
  assert (R : read_as every_feature u_source u_field) by (inversion HF; assumption).
  assert (M : field_methods u_ctx u_field = GOk (methods_in u_ctx u_field)) by (vm_compute; reflexivity).
  split; [exact HS|]. split; [exact HF|]. split; [exact R|]. split.
  { intros K. apply (f_skipped every_feature u_source u_field R) in K. vm_compute in K. discriminate K. }
  split; [exact M|]. split.
  { apply (w_facts every_feature u_ctx (terminated u_struct) HS u_source u_field R [u_source] HF). reflexivity. }
  split; [vm_compute; reflexivity|]. split; [vm_compute; reflexivity|]. split; [vm_compute; reflexivity|]. split.
  { intros k K. apply (w_methods every_feature u_ctx (terminated u_struct) [u_source] HS HF u_source u_field R k _ M) in K.
    assert (L : map m_kind (methods_in u_ctx u_field) = [KAccessor; KWriter; KSetter; KClearer; KPredicate]) by (vm_compute; reflexivity).
    rewrite L in K. destruct K as [<-|[<-|[<-|[<-|[<-|[]]]]]]; vm_compute; reflexivity. }
  eexists. eexists. eexists. split; [vm_compute; reflexivity|]. split; vm_compute; auto 30.
Qed.
