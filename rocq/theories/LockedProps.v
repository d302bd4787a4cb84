(** Property C87: the emitted methods of a locked field, called by any number of threads or
    tasks at a time. *)
From Coq Require Import List Bool String Arith.
From Verif Require Import ProxyTypes ArgsModel CtxModel ArgsSpec TokenSpec ParseInput ParseModel ParseSpec ParseForms GrammarSpec GrammarProps
  ArgsFixtures ArgsProps CodegenProps RustAst CommonGen StructGen CodegenSpec FieldSpec FieldRun FieldProps
  WrittenSpec WrittenProofs WrittenNames WrittenProps SignSpec SignTypes SignMethods SignProps MadeSpec MadeProofs MadeProps BehaveSpec BehaveProofs
  ThreadSpec ThreadProps LockedModel LockedProofs LockedWords.
Import ListNotations.
Open Scope string_scope.
Open Scope list_scope.

(** ** C87 *)
(** Whatever the schedule, what the users of the field see is what users of the cell of
    FieldSpec.v can see, one call or use of a guard at a time; no method ever meets a value
    it cannot handle. *)
Theorem C87_threads : forall c f bld dflt t asy opt ms o l th h,
  field_type c f = GOk t -> lock_of t = Some (asy, opt) -> field_methods c f = GOk ms ->
  (forall k, In k (map m_kind ms) -> works c f k = true) -> has_content (view_of c f) o = true ->
  shared asy opt ms o l = Some (th, h) ->
  (exists w, wruns bld dflt (view_of c f) asy (wstart o) h w) /\ forall a, th a <> LDoing LWrong.
Proof. exact (fun c f bld dflt t asy opt ms o l th h T L M Wk => crowds c f bld dflt t asy opt ms T L M Wk o l th h). Qed.
Print Assumptions C87_threads.
(** While a call or a use of a guard is in progress something can move, or somebody keeps a
    guard. *)
Theorem C87_moves : forall c f t asy opt ms o l th h a,
  field_type c f = GOk t -> lock_of t = Some (asy, opt) -> field_methods c f = GOk ms ->
  (forall k, In k (map m_kind ms) -> works c f k = true) -> has_content (view_of c f) o = true ->
  shared asy opt ms o l = Some (th, h) -> th a <> LIdle ->
  (exists b, shared asy opt ms o (l ++ [LGo b]) <> None) \/ exists b g, th b = LKeeping g.
Proof.
  exact (fun c f t asy opt ms o l th h a T L M Wk => crowds_move c f (fun _ => BPanic) 0 t asy opt ms T L M Wk o l th h a).
Qed.
Print Assumptions C87_moves.
(** The same from the words of the attributes. *)
Theorem C87_written : forall ft c ss all x f q bld dflt t ms o l th h,
  struct_as ft ss (c_args c) -> Forall2 (read_as ft) all (c_input_fields c) -> read_as ft x f -> ~ skipped x ->
  field_type c f = GOk t -> field_methods c f = GOk ms ->
  facts_told ss all x q -> q_sync q = true -> q_lazy q = false -> q_locked q = true ->
  (forall k, method_for ss all x k -> sound_call q k = true) -> has_content (told_view q) o = true ->
  shared (q_async q) (q_optional q) ms o l = Some (th, h) ->
  exists w, wruns bld dflt (told_view q) (q_async q) (wstart o) h w.
Proof.
  exact (fun ft c ss all x f q bld dflt t ms o l th h HS HF R =>
    w_crowds ft c ss all HS HF x f R q bld dflt t ms o l th h).
Qed.
Print Assumptions C87_written.

Definition go (n : nat) (a : aid) : list lact := repeat (LGo a) n.
(** A thread keeps the getter's guard, a setter waits until it is dropped; then the value is
    taken away through a writer, which a predicate and a clearer notice. *)
Definition bustle : list lact :=
  [LInvoke 1 KReader 0] ++ go 2 1 ++ [LInvoke 2 KAccessor 0; LGo 2; LInvoke 3 KSetter 5; LUse 1 Look] ++ go 2 1 ++ go 3 2.
Definition bustle_rest : list lact :=
  [LUse 1 LetGo] ++ go 2 1 ++ go 4 3 ++ [LInvoke 1 KWriter 0] ++ go 2 1 ++
  [LUse 1 (Put None)] ++ go 2 1 ++ [LInvoke 2 KPredicate 0; LUse 1 LetGo] ++ go 2 1 ++ go 4 2 ++
  [LInvoke 3 KClearer 0] ++ go 4 3.
Definition shared_opt : field := put_f_lock (Some true) (put_f_reader h_on (put_f_writer h_on opt_all)).
(** Tasks on a field that always has a value: one is dropped before it starts, one while it
    waits for the lock. *)
Definition dropped_tasks : list lact :=
  [LInvoke 1 KWriter 0] ++ go 3 1 ++ [LInvoke 2 KSetter 5; LAbandon 2; LInvoke 2 KSetter 6; LGo 2; LAbandon 2;
   LInvoke 2 KReader 0; LGo 2; LUse 1 (Put (Some 7))] ++ go 2 1 ++ [LUse 1 LetGo] ++ go 2 1 ++ go 2 2 ++
  [LInvoke 3 KSetter 8; LGo 3; LUse 2 LetGo] ++ go 2 2 ++ go 4 3.
Definition shared_bare : field :=
  put_f_lock (Some true) (put_f_reader h_on (put_f_writer h_on (put_f_setter set_on (put_f_accessor get_on fa)))).
Example C87_case :
  let f := shared_opt in
  let c := ctx_of sync_s [f] in
  field_type c f = GOk (TLock false (TOpt TT)) /\ lock_of (TLock false (TOpt TT)) = Some (false, true) /\
  field_methods c f = GOk (methods_in c f) /\ forallb (works c f) (map m_kind (methods_in c f)) = true /\
  has_content (view_of c f) (Some 4) = true /\
  (exists th, shared false true (methods_in c f) (Some 4) (bustle ++ bustle_rest) = Some (th,
    [HCall 1 KReader 0; HRet 1 (ORet (AnOpt (Some 4))); HCall 2 KAccessor 0; HCall 3 KSetter 5; HUse 1 Look;
     HRet 1 (ORet (AnOpt (Some 4))); HRet 2 (ORet (AnOpt (Some 4))); HUse 1 LetGo; HRet 1 ODone; HRet 3 (ORet (AnOpt (Some 4)));
     HCall 1 KWriter 0; HRet 1 (ORet (AnOpt (Some 5))); HUse 1 (Put None); HRet 1 ODone; HCall 2 KPredicate 0; HUse 1 LetGo;
     HRet 1 ODone; HRet 2 (ORet (AnBool false)); HCall 3 KClearer 0; HRet 3 (ORet (AnOpt None))])) /\
  (* while the guard is kept the setter waits *)
  (exists th h, shared false true (methods_in c f) (Some 4) bustle = Some (th, h) /\
    th 1 = LKeeping (mk_guard false false) /\ th 2 = LIdle /\ (exists k, th 3 = LDoing (LOp (LAcq true) k)) /\
    shared false true (methods_in c f) (Some 4) (bustle ++ [LGo 3]) = None).
Proof.
  cbn zeta. repeat (split; [vm_compute; reflexivity|]). split; [eexists; vm_compute; reflexivity|].
  eexists. eexists. split; [vm_compute; reflexivity|]. split; [vm_compute; reflexivity|]. split; [vm_compute; reflexivity|].
  split; [eexists; vm_compute; reflexivity|vm_compute; reflexivity].
Qed.
Example C87_async_case :
  let f := shared_bare in
  let c := ctx_of async_s [f] in
  field_type c f = GOk (TLock true TT) /\ lock_of (TLock true TT) = Some (true, false) /\
  field_methods c f = GOk (methods_in c f) /\ forallb (works c f) (map m_kind (methods_in c f)) = true /\
  has_content (view_of c f) (Some 4) = true /\
  exists th, shared true false (methods_in c f) (Some 4) dropped_tasks = Some (th,
    [HCall 1 KWriter 0; HRet 1 (ORet (AnVal 4)); HCall 2 KSetter 5; HGone 2; HCall 2 KSetter 6; HGone 2; HCall 2 KReader 0;
     HUse 1 (Put (Some 7)); HRet 1 ODone; HUse 1 LetGo; HRet 1 ODone; HRet 2 (ORet (AnVal 7)); HCall 3 KSetter 8; HUse 2 LetGo;
     HRet 2 ODone; HRet 3 (ORet (AnVal 7))]).
Proof. cbn zeta. repeat (split; [vm_compute; reflexivity|]). eexists; vm_compute; reflexivity. Qed.
(** [#[fxstruct(sync)]] and the field [#[fieldx(lock, get(clone), set, reader, writer, optional, clearer, predicate)]]. *)
Definition b_words : list tok :=
  [ww "lock"; cc; ww "get"; TGroup DParen [ww "clone"]; cc; ww "set"; cc; ww "reader"; cc; ww "writer"; cc; ww "optional"; cc;
   ww "clearer"; cc; ww "predicate"].
Definition b_source : source := mk_source [FList b_words] (terminated b_words ++ []).
Definition b_ctx : sctx :=
  match read_struct every_feature u_struct with
  | Some s => mk_sctx "S" "pub" s (w_read "a" b_source)
  | None => w_ctx
  end.
Definition b_field : field := nth 0 (c_input_fields b_ctx) (bare_field "none" "T").
Definition b_facts : facts := facts_of (cfg_of b_ctx b_field) (is_sync b_ctx b_field).
Example C87_written_case :
  struct_as every_feature (terminated u_struct) (c_args b_ctx) /\
  Forall2 (read_as every_feature) [b_source] (c_input_fields b_ctx) /\ read_as every_feature b_source b_field /\ ~ skipped b_source /\
  field_type b_ctx b_field = GOk (TLock false (TOpt TT)) /\ field_methods b_ctx b_field = GOk (methods_in b_ctx b_field) /\
  facts_told (terminated u_struct) [b_source] b_source b_facts /\
  q_sync b_facts = true /\ q_lazy b_facts = false /\ q_locked b_facts = true /\ q_async b_facts = false /\ q_optional b_facts = true /\
  (forall k, method_for (terminated u_struct) [b_source] b_source k -> sound_call b_facts k = true) /\
  has_content (told_view b_facts) (Some 4) = true /\
  (exists th h, shared false true (methods_in b_ctx b_field) (Some 4) (bustle ++ bustle_rest) = Some (th, h) /\
    In (HRet 2 (ORet (AnBool false))) h /\ In (HRet 2 (ORet (AnOpt (Some 4)))) h).
Proof.
  assert (HS : struct_as every_feature (terminated u_struct) (c_args b_ctx)).
  { exists u_struct. split; [apply w_arguments; reflexivity|vm_compute; reflexivity]. }
  assert (HF : Forall2 (read_as every_feature) [b_source] (c_input_fields b_ctx)).
  { apply Forall2_cons; [apply (m_row _ "a"); [reflexivity|vm_compute; reflexivity]|apply Forall2_nil]. }
  assert (R : read_as every_feature b_source b_field) by (inversion HF; assumption).
  assert (M : field_methods b_ctx b_field = GOk (methods_in b_ctx b_field)) by (vm_compute; reflexivity).
  split; [exact HS|]. split; [exact HF|]. split; [exact R|]. split.
  { intros K. apply (f_skipped every_feature b_source b_field R) in K. vm_compute in K. discriminate K. }
  split; [vm_compute; reflexivity|]. split; [exact M|]. split.
  { apply (w_facts every_feature b_ctx (terminated u_struct) HS b_source b_field R [b_source] HF). reflexivity. }
  repeat (split; [vm_compute; reflexivity|]). split.
  { intros k K. apply (w_methods every_feature b_ctx (terminated u_struct) [b_source] HS HF b_source b_field R k _ M) in K.
    assert (L : map m_kind (methods_in b_ctx b_field) = [KAccessor; KReader; KWriter; KSetter; KClearer; KPredicate])
      by (vm_compute; reflexivity).
    rewrite L in K. destruct K as [<-|[<-|[<-|[<-|[<-|[<-|[]]]]]]]; vm_compute; reflexivity. }
  split; [vm_compute; reflexivity|]. eexists. eexists. split; [vm_compute; reflexivity|]. split; vm_compute; auto 30.
Qed.
