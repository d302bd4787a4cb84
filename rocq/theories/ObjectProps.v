(** Property C89: the emitted methods of all the fields of a shared object, called by any
    number of threads or tasks at a time. *)
From Coq Require Import List Bool String Arith Lia.
From Verif Require Import ProxyTypes ArgsModel CtxModel ArgsSpec TokenSpec ParseInput ParseModel ParseSpec ParseForms GrammarSpec GrammarProps
  ArgsFixtures ArgsProps CodegenProps GuardCell RustAst CommonGen StructGen CodegenSpec FieldSpec FieldRun FieldProps
  WrittenSpec WrittenProofs WrittenNames WrittenProps SignSpec SignTypes SignMethods SignProps MadeSpec MadeProofs MadeProps BehaveSpec BehaveProofs
  ThreadSpec ThreadModel ThreadProps LockedModel LockedProps ObjectSpec ObjectModel ObjectParts ObjectRecord ObjectWords.
Import ListNotations.
Open Scope string_scope.
Open Scope list_scope.

(** ** C89 *)
(** The fields of a struct that a shared object can have ([part_of]): those of sync structs,
    and plain ones that are neither lazy nor changed inside, with a content they can hold. *)
Theorem C89_shareable : forall c f o t ms,
  f_is_skipped f = false -> field_type c f = GOk t -> field_methods c f = GOk ms ->
  ((exists p, part_of c f o = Some p) <->
   (is_sync c f = true \/ (is_lazy c f = false /\ is_inner_mut c f = false)) /\ has_content (view_of c f) o = true).
Proof. exact shareable_field. Qed.
Print Assumptions C89_shareable.
(** Whatever the schedule, and whatever methods of the object its builders call, what the
    users of the object see is what users of a record of cells can see, one call or use of a
    guard at a time, in one order for all the fields. *)
Theorem C89_record : forall c fo ps bld dflt user l s h t,
  (forall f o, In (f, o) fo -> f_is_skipped f = false) ->
  map (fun x => part_of c (fst x) (snd x)) fo = map Some ps ->
  (forall f o ms k, In (f, o) fo -> field_methods c f = GOk ms -> In k (map m_kind ms) -> works c f k = true) ->
  object_run dflt user ps l = Some (s, h, t) -> (forall i, oracle (bld i) (at_field i t)) ->
  let roles := map (fun x => mk_role (view_of c (fst x)) (is_async c (fst x)) (snd x)) fo in
  exists ws, rruns bld dflt roles (rstart roles) h ws.
Proof. exact (fun c fo ps bld dflt user l s h t Sk Po Wk => object_history c fo ps bld dflt user Sk Po Wk l s h t). Qed.
Print Assumptions C89_record.
(** If builders call methods only of fields below their own, while a call or a use of a
    guard is in progress something can move, if only a builder which waits for nothing, or
    somebody keeps a guard. *)
Theorem C89_moves : forall c fo ps dflt user (rank : nat -> nat) l s h t i a,
  (forall f o, In (f, o) fo -> f_is_skipped f = false) ->
  map (fun x => part_of c (fst x) (snd x)) fo = map Some ps ->
  (forall f o ms k, In (f, o) fo -> field_methods c f = GOk ms -> In k (map m_kind ms) -> works c f k = true) ->
  object_run dflt user ps l = Some (s, h, t) ->
  (forall i b j a k n, In (OInner i b j a k n) l -> rank j < rank i) ->
  acting (o_fields s) (i, a) = true ->
  let next x := object_run dflt user ps (l ++ [x]) in
  (exists j b, next (OAct j (MGo b)) <> None \/ next (OAct j (MStep b)) <> None) \/
  (exists j b, forall out, next (OAct j (MBuilt b out)) <> None) \/
  (exists j fs b g, nth_error (o_fields s) j = Some fs /\ place_of fs b = Keeps g).
Proof.
  exact (fun c fo ps dflt user rank l s h t i a Sk Po Wk =>
    object_moves c fo ps (fun _ _ => BPanic) dflt user Sk Po Wk rank l s h t i a).
Qed.
Print Assumptions C89_moves.
(** The same from the words of the attributes. *)
Theorem C89_written : forall ft c ss all its ps bld dflt user l s h t,
  struct_as ft ss (c_args c) -> Forall2 (read_as ft) all (c_input_fields c) ->
  (forall x q f o, In (x, q, f, o) its ->
    read_as ft x f /\ ~ skipped x /\ facts_told ss all x q /\ forall k, method_for ss all x k -> sound_call q k = true) ->
  map (fun x => part_of c (fst x) (snd x)) (map (fun e => let '(x, q, f, o) := e in (f, o)) its) = map Some ps ->
  object_run dflt user ps l = Some (s, h, t) -> (forall i, oracle (bld i) (at_field i t)) ->
  let roles := map (fun e => let '(x, q, f, o) := e in mk_role (told_view q) (q_async q) o) its in
  exists ws, rruns bld dflt roles (rstart roles) h ws.
Proof.
  exact (fun ft c ss all its ps bld dflt user l s h t HS HF Told => w_object ft c ss all HS HF its Told ps bld dflt user l s h t).
Qed.
Print Assumptions C89_written.

Definition gos (i n : nat) (a : aid) : list oact := repeat (OAct i (MGo a)) n.
Definition steps_of (i n : nat) (a : aid) : list oact := repeat (OAct i (MStep a)) n.
Definition parts_in (c : sctx) (l : list (field * option nat)) : list part :=
  flat_map (fun x => match part_of c (fst x) (snd x) with Some p => [p] | None => [] end) l.
Lemma all_work c l : forallb (fun x => forallb (works c (fst x)) (map m_kind (methods_in c (fst x)))) l = true ->
  forall (f : field) (o : option nat) ms k, In (f, o) l -> field_methods c f = GOk ms -> In k (map m_kind ms) -> works c f k = true.
Proof.
  intros H f o ms k I M K. rewrite forallb_forall in H. specialize (H _ I). cbn [fst] in H. unfold methods_in in H. rewrite M in H.
  rewrite forallb_forall in H. apply H, K.
Qed.
(** ** Builders that call each other *)
Definition lazy_get (x : field) : field := put_f_lazy h_on (put_f_accessor get_on x).
Definition two : list (field * option nat) := [(lazy_get fa, None); (lazy_get fb, None)].
Definition two_parts : list part := parts_in (ctx_of sync_s (map fst two)) two.
(** Each of two threads builds one of the fields, and the builders want the other field. *)
Definition embrace : list oact :=
  [OAct 0 (MInvoke 1 KAccessor 0); OAct 1 (MInvoke 2 KAccessor 0); OAct 0 (MGo 1); OAct 1 (MGo 2)] ++
  steps_of 0 5 1 ++ steps_of 1 5 2 ++
  [OInner 0 1 1 1 KAccessor 0; OInner 1 2 0 2 KAccessor 0; OAct 1 (MGo 1); OAct 0 (MGo 2)].
(** Without the order of the fields nothing might ever move again, though nobody keeps a
    guard. *)
Theorem C89_cycle_refuted : let c := ctx_of sync_s (map fst two) in
  map (fun x => part_of c (fst x) (snd x)) two = map Some two_parts /\
  (forall f o ms k, In (f, o) two -> field_methods c f = GOk ms -> In k (map m_kind ms) -> works c f k = true) /\
  exists s h t, object_run 0 (fun _ => 0) two_parts embrace = Some (s, h, t) /\
    acting (o_fields s) (0, 1) = true /\
    let next x := object_run 0 (fun _ => 0) two_parts (embrace ++ [x]) in
    (forall j b, next (OAct j (MGo b)) = None /\ next (OAct j (MStep b)) = None /\ next (OAct j (MAbandon b)) = None /\
       forall out, next (OAct j (MBuilt b out)) = None) /\
    forall j fs b g, nth_error (o_fields s) j = Some fs -> place_of fs b <> Keeps g.
Proof.
  cbn zeta. split; [vm_compute; reflexivity|]. split.
  { apply all_work. vm_compute. reflexivity. }
  eexists. eexists. eexists. split; [vm_compute; reflexivity|]. split; [vm_compute; reflexivity|]. split.
  - intros j b. destruct j as [|[|j]].
    + destruct b as [|[|[|b]]]; repeat split; try (vm_compute; reflexivity); intros out; vm_compute; reflexivity.
    + destruct b as [|[|[|b]]]; repeat split; try (vm_compute; reflexivity); intros out; vm_compute; reflexivity.
    + destruct j; repeat split; try (vm_compute; reflexivity); intros out; vm_compute; reflexivity.
  - intros j fs b g H. destruct j as [|[|j]].
    + injection H as <-. destruct b as [|[|[|b]]]; vm_compute; discriminate.
    + injection H as <-. destruct b as [|[|[|b]]]; vm_compute; discriminate.
    + destruct j; discriminate H.
Qed.
Print Assumptions C89_cycle_refuted.

(** ** A case *)
(** A lazy field whose builder reads a locked field, in which another thread waits to set a
    value, and a field that is kept as it is. *)
Definition mixed : list (field * option nat) :=
  [(lazy_get fa, None);
   (put_f_lock (Some true) (put_f_reader h_on (put_f_writer h_on (put_f_setter set_on (put_f_accessor get_on fb)))), Some 4);
   (put_f_accessor get_on (bare_field "c" "C"), Some 9)].
Definition mixed_parts : list part := parts_in (ctx_of sync_s (map fst mixed)) mixed.
Definition errand : list oact :=
  [OAct 0 (MInvoke 1 KAccessor 0); OAct 0 (MGo 1)] ++ steps_of 0 5 1 ++
  [OInner 0 1 1 1 KReader 0; OAct 1 (MInvoke 2 KSetter 5); OAct 2 (MInvoke 3 KAccessor 0)] ++ gos 1 2 1 ++ gos 2 2 3 ++
  [OInner 0 1 2 1 KAccessor 0].
Definition errand_rest : list oact :=
  gos 2 2 1 ++ [OAct 1 (MUse 1 LetGo)] ++ gos 1 2 1 ++ [OAct 0 (MInvoke 2 KAccessor 0); OAct 0 (MBuilt 1 (BOk 13))] ++
  gos 1 4 2 ++ steps_of 0 6 1 ++ [OAct 0 (MGo 1); OAct 0 (MGo 2)] ++ steps_of 0 5 2 ++ [OAct 0 (MGo 2)].
Example C89_case : let c := ctx_of sync_s (map fst mixed) in
  (forall f o, In (f, o) mixed -> f_is_skipped f = false) /\
  map (fun x => part_of c (fst x) (snd x)) mixed = map Some mixed_parts /\
  (forall f o ms k, In (f, o) mixed -> field_methods c f = GOk ms -> In k (map m_kind ms) -> works c f k = true) /\
  (exists s t, object_run 0 (fun _ => 0) mixed_parts (errand ++ errand_rest) = Some (s,
    [(0, HCall 1 KAccessor 0); (1, HCall 1 KReader 0); (1, HCall 2 KSetter 5); (2, HCall 3 KAccessor 0);
     (1, HRet 1 (ORet (AnVal 4))); (2, HRet 3 (ORet (AnVal 9))); (2, HCall 1 KAccessor 0); (2, HRet 1 (ORet (AnVal 9)));
     (1, HUse 1 LetGo); (1, HRet 1 ODone); (0, HCall 2 KAccessor 0); (1, HRet 2 (ORet (AnVal 4)));
     (0, HRet 1 (ORet (AnVal 13))); (0, HRet 2 (ORet (AnVal 13)))], t) /\
    ends (at_field 0 t) = [BOk 13] /\ at_field 1 t = [] /\ at_field 2 t = []) /\
  (* the builder does not end before its call *)
  (exists s h t, object_run 0 (fun _ => 0) mixed_parts errand = Some (s, h, t) /\ acting (o_fields s) (2, 1) = true) /\
  object_run 0 (fun _ => 0) mixed_parts (errand ++ [OAct 0 (MBuilt 1 (BOk 13))]) = None /\
  (* its calls go to fields below its own *)
  (forall i b j a k n, In (OInner i b j a k n) (errand ++ errand_rest) -> 3 - j < 3 - i).
Proof.
  cbn zeta. split. { intros f o [E|[E|[E|[]]]]; injection E as <- <-; reflexivity. }
  split; [vm_compute; reflexivity|]. split.
  { apply all_work. vm_compute. reflexivity. }
  split. { eexists. eexists. split; [vm_compute; reflexivity|]. vm_compute. auto. }
  split. { eexists. eexists. eexists. split; vm_compute; reflexivity. }
  split; [vm_compute; reflexivity|].
  intros i b j a k n I. cbn in I.
  repeat (destruct I as [E|I]; [first [discriminate E|injection E as <- <- <- <- <- <-; cbn; lia]|]). destruct I.
Qed.
(** [#[fxstruct(sync)]] with the fields of C86_written_case and C87_written_case. *)
Definition v_sources : list source := [u_source; b_source].
Definition v_ctx : sctx :=
  match read_struct every_feature u_struct with
  | Some s => mk_sctx "S" "pub" s (w_read "a" u_source ++ w_read "b" b_source)
  | None => w_ctx
  end.
Definition v_field (i : nat) : field := nth i (c_input_fields v_ctx) (bare_field "none" "T").
Definition v_facts (i : nat) : facts := facts_of (cfg_of v_ctx (v_field i)) (is_sync v_ctx (v_field i)).
Definition v_items : list (source * facts * field * option nat) :=
  [(u_source, v_facts 0, v_field 0, None); (b_source, v_facts 1, v_field 1, Some 4)].
Definition v_parts : list part := parts_in v_ctx [(v_field 0, None); (v_field 1, Some 4)].
Definition v_plan : list oact :=
  [OAct 0 (MInvoke 1 KAccessor 0); OAct 0 (MGo 1)] ++ steps_of 0 5 1 ++
  [OInner 0 1 1 1 KAccessor 0] ++ gos 1 4 1 ++ [OAct 0 (MBuilt 1 (BOk 10))] ++ steps_of 0 6 1 ++ gos 0 1 1.
Example C89_written_case :
  struct_as every_feature (terminated u_struct) (c_args v_ctx) /\
  Forall2 (read_as every_feature) v_sources (c_input_fields v_ctx) /\
  (forall x q f o, In (x, q, f, o) v_items ->
    read_as every_feature x f /\ ~ skipped x /\ facts_told (terminated u_struct) v_sources x q /\
    forall k, method_for (terminated u_struct) v_sources x k -> sound_call q k = true) /\
  map (fun x => part_of v_ctx (fst x) (snd x)) (map (fun e => let '(x, q, f, o) := e in (f, o)) v_items) = map Some v_parts /\
  exists s h t, object_run 0 (fun _ => 0) v_parts v_plan = Some (s, h, t) /\
    In (1, HRet 1 (ORet (AnOpt (Some 4)))) h /\ In (0, HRet 1 (ORet (AnVal 10))) h.
Proof.
  assert (HS : struct_as every_feature (terminated u_struct) (c_args v_ctx)).
  { exists u_struct. split; [apply w_arguments; reflexivity|vm_compute; reflexivity]. }
  assert (HF : Forall2 (read_as every_feature) v_sources (c_input_fields v_ctx)).
  { apply Forall2_cons; [apply (m_row _ "a"); [reflexivity|vm_compute; reflexivity]|].
    apply Forall2_cons; [apply (m_row _ "b"); [reflexivity|vm_compute; reflexivity]|apply Forall2_nil]. }
  assert (R0 : read_as every_feature u_source (v_field 0)) by (inversion HF; assumption).
  assert (R1 : read_as every_feature b_source (v_field 1)) by (inversion HF as [|? ? ? ? ? H2]; inversion H2; assumption).
  split; [exact HS|]. split; [exact HF|]. split; [|split].
  - assert (One : forall x f q (l : list hkind), read_as every_feature x f -> f_is_skipped f = false ->
      q = facts_of (cfg_of v_ctx f) (is_sync v_ctx f) -> field_methods v_ctx f = GOk (methods_in v_ctx f) ->
      forallb (sound_call q) (map m_kind (methods_in v_ctx f)) = true ->
      read_as every_feature x f /\ ~ skipped x /\ facts_told (terminated u_struct) v_sources x q /\
      forall k, method_for (terminated u_struct) v_sources x k -> sound_call q k = true).
    { intros x f q l R Sk Q M B. split; [exact R|]. split.
      { intros K. apply (f_skipped every_feature x f R) in K. unfold f_is_skipped in Sk. congruence. }
      split; [apply (w_facts every_feature v_ctx (terminated u_struct) HS x f R v_sources HF); exact Q|].
      intros k K. apply (w_methods every_feature v_ctx (terminated u_struct) v_sources HS HF x f R k _ M) in K.
      rewrite forallb_forall in B. apply B, K. }
    intros x q f o [E|[E|[]]]; injection E as <- <- <- <-; apply (One _ _ _ []); try assumption; vm_compute; reflexivity.
  - vm_compute. reflexivity.
  - eexists. eexists. eexists. split; [vm_compute; reflexivity|]. split; vm_compute; auto 30.
Qed.
