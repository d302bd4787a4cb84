(** Property C96: sessions of one thread with all the fields of an object. *)
From Coq Require Import List Bool String Arith Lia.
From Verif Require Import ProxyTypes ArgsModel CtxModel ArgsSpec TokenSpec ParseInput ParseModel ParseSpec ArgsFixtures ArgsProps CodegenProps GuardCell RustAst CommonGen StructGen
  CodegenSpec FieldSpec FieldRun FieldStruct FieldProps GrammarSpec GrammarProps WrittenSpec WrittenProofs WrittenProps SignSpec BuilderModel SerdeModel ThreadSpec ObjectSpec LifeSpec LifeModel LifeRecord LifeWords
  ThreadProps SerdeProps LifeProps SessionSpec SessionModel SessionProofs.
Import ListNotations.
Open Scope string_scope.
Open Scope list_scope.

(** ** C96 *)
(** Whatever program the owner writes that makes sense, with guards of many fields kept at once:
    it sees what a record of cells shows, the builders run as often, as many guards are
    left, and the fields store what the cells hold. *)
Theorem C96_session : forall bld dflt user c fs l ks ws os us,
  (forall f, In f fs -> f_is_skipped f = false) ->
  (forall f ms k, In f fs -> field_methods c f = GOk ms -> In k (map m_kind ms) -> works c f k = true) ->
  stores c fs ks ws -> session_offered c fs l = true ->
  spec_session bld dflt (map (view_of c) fs) l (at_start ks) = Some (os, us) ->
  exists ius, impl_session bld dflt user c fs l (all_fresh ws) = Some (os, ius) /\
    stores c fs (map u_val us) (map (fun x => RustSem.fld (i_st x)) ius) /\
    forall i iu u, nth_error ius i = Some iu -> nth_error us i = Some u ->
      List.length (i_guards iu) = List.length (u_guards u) /\ RustSem.calls (i_st iu) = u_builds u.
Proof.
  intros bld dflt user c fs l ks ws os us Sk Wk St Of Sp.
  destruct (session_sim bld dflt user c fs Sk Wk l _ _ os us Of (start_stand c fs ks ws St) Sp) as (ius & R & Se).
  exists ius. split; [exact R|]. split; [exact (end_stores c fs ius us Se)|]. intros i iu u I U. exact (end_guards c fs ius us i iu u Se I U).
Qed.
Print Assumptions C96_session.
(** Fields do not interfere: each does what it would do if what was asked of it was all that
    was asked. *)
Theorem C96_apart : forall bld dflt user c fs l us os us', impl_session bld dflt user c fs l us = Some (os, us') ->
  List.length us' = List.length us /\
  forall i f ms u, nth_error fs i = Some f -> field_methods c f = GOk ms -> nth_error us i = Some u ->
  exists u', nth_error us' i = Some u' /\ impl_run (bld i) (is_fallible c f) true dflt user ms (done_with i l os) u = Some (seen_of i l os, u').
Proof. exact apart. Qed.
Print Assumptions C96_apart.
(** So a session in which no guard is left is as good as scenes in which one field is used after
    another: all that C93 and C94 say about lives is said of owners who keep guards of many
    fields. *)
Theorem C96_scenes : forall bld dflt user c fs l ws os ius, session_offered c fs l = true -> List.length ws = List.length fs ->
  (forall f, In f fs -> exists ms, field_methods c f = GOk ms) ->
  impl_session bld dflt user c fs l (all_fresh ws) = Some (os, ius) -> (forall iu, In iu ius -> i_guards iu = []) ->
  lives dflt user c fs ws (map (scene_of bld l os) (seq 0 (List.length fs))) (map (fun x => RustSem.fld (i_st x)) ius).
Proof. exact scenes_apart. Qed.
Print Assumptions C96_scenes.
(** By the words of the attributes. *)
Theorem C96_written : forall ft c ss all bld dflt user parts l ks ws os us,
  struct_as ft ss (c_args c) -> Forall2 (read_as ft) all (c_input_fields c) -> cells_told ss all all parts -> sound_words ss all ->
  stores c (builder_input c) ks ws -> session_offered c (builder_input c) l = true ->
  spec_session bld dflt (map fst parts) l (at_start ks) = Some (os, us) ->
  exists ius, impl_session bld dflt user c (builder_input c) l (all_fresh ws) = Some (os, ius) /\
    stores c (builder_input c) (map u_val us) (map (fun x => RustSem.fld (i_st x)) ius).
Proof.
  intros ft c ss all bld dflt user parts l ks ws os us HS HF Ce So St Of Sp.
  pose proof (proj1 (w_cells ft c ss all HS HF parts) Ce) as ->.
  assert (V : map fst (cells_of c (builder_input c)) = map (view_of c) (builder_input c)) by (unfold cells_of; rewrite map_map; reflexivity).
  rewrite V in Sp.
  destruct (C96_session bld dflt user c (builder_input c) l ks ws os us (w_unskipped c) (w_works ft c ss all HS HF So) St Of Sp) as (ius & R & E & _).
  exists ius. auto.
Qed.
Print Assumptions C96_written.

(** ** Cases *)
(** The struct of C93: guards of a and b are kept at once, a is built while b is being read, b is
    set while a is being read; with its guard kept b waits for itself and the rest is not done. *)
Definition ss_plan : list (nat * act) :=
  [(1, ACall KReader 0 Keep); (0, ACall KAccessor 0 Keep); (1, APeek 0); (0, APeek 0); (1, ADrop 0); (1, ACall KSetter 5 Release); (0, APeek 0);
   (0, ADrop 0); (0, ACall KClearer 0 Release); (2, ACall KAccessor 0 Release)].
Definition ss_seen : list obs :=
  [ORet (AnVal 3); ORet (AnVal 13); ORet (AnVal 3); ORet (AnVal 13); ODone; ORet (AnVal 3); ORet (AnVal 13); ODone; ORet (AnOpt (Some 13)); ORet (AnVal 9)].
Definition ss_stuck : list (nat * act) :=
  [(1, ACall KReader 0 Keep); (0, ACall KAccessor 0 Keep); (1, ACall KWriter 5 Keep); (0, APeek 0)].
Definition left_behind (r : option (list obs * list ist)) : option (list obs * list (RustSem.val * nat)) :=
  option_map (fun x => (fst x, map (fun u => (RustSem.fld (i_st u), List.length (i_guards u))) (snd x))) r.
Example C96_case :
  struct_as every_feature (terminated l_struct) (c_args l_ctx) /\ Forall2 (read_as every_feature) l_sources (c_input_fields l_ctx) /\
  cells_told (terminated l_struct) l_sources l_sources l_parts /\ sound_words (terminated l_struct) l_sources /\
  stores l_ctx (builder_input l_ctx) [None; Some 3; Some 9] (l_first 3 9) /\ session_offered l_ctx (builder_input l_ctx) ss_plan = true /\
  spec_session (fun _ => thirteen) 3 (map fst l_parts) ss_plan (at_start [None; Some 3; Some 9]) =
    Some (ss_seen, [mk_ust None [] 1; mk_ust (Some 5) [] 0; mk_ust (Some 9) [] 0]) /\
  left_behind (impl_session (fun _ => thirteen) 3 SerdeProps.five l_ctx (builder_input l_ctx) ss_plan (all_fresh (l_first 3 9))) =
    Some (ss_seen, [(RustSem.VProxy false None, 0); (RustSem.VLock false (RustSem.VT 5), 0); (RustSem.VT 9, 0)]) /\
  map (fun i => (done_with i ss_plan ss_seen, seen_of i ss_plan ss_seen)) [0; 1; 2] =
    [([ACall KAccessor 0 Keep; APeek 0; APeek 0; ADrop 0; ACall KClearer 0 Release],
      [ORet (AnVal 13); ORet (AnVal 13); ORet (AnVal 13); ODone; ORet (AnOpt (Some 13))]);
     ([ACall KReader 0 Keep; APeek 0; ADrop 0; ACall KSetter 5 Release], [ORet (AnVal 3); ORet (AnVal 3); ODone; ORet (AnVal 3)]);
     ([ACall KAccessor 0 Release], [ORet (AnVal 9)])] /\
  session_offered l_ctx (builder_input l_ctx) ss_stuck = true /\
  left_behind (impl_session (fun _ => thirteen) 3 SerdeProps.five l_ctx (builder_input l_ctx) ss_stuck (all_fresh (l_first 3 9))) =
    Some ([ORet (AnVal 3); ORet (AnVal 13); OWait],
      [(RustSem.VProxy false (Some (RustSem.VT 13)), 1); (RustSem.VLock false (RustSem.VT 3), 1); (RustSem.VT 9, 0)]).
Proof.
  split; [exact l_struct_as|]. split; [exact l_read_as|]. split; [exact l_cells|]. split; [exact l_sound|].
  assert (B : builder_input l_ctx = [l_field 0; l_field 1; l_field 2]) by (vm_compute; reflexivity). rewrite B.
  split; [repeat (split; [eexists; split; vm_compute; reflexivity|]); exact I|]. repeat (split; [vm_compute; reflexivity|]). vm_compute. reflexivity.
Qed.
(** A plain struct with a lazy field that returns references and one that is changed inside: the
    borrow that is kept makes only its own field panic. *)
Definition sp_fields : list field := [lazy_all; put_f_ident "b" cell_field].
Definition sp_ctx : sctx := ctx_of plain_s sp_fields.
Definition sp_plan : list (nat * act) :=
  [(1, ACall KAccessor 0 Keep); (0, ACall KAccessor 0 Release); (1, ACall KSetter 8 Release); (0, ACall KPredicate 0 Release); (1, APeek 0);
   (1, ADrop 0); (1, ACall KAccessorMut 0 Keep); (0, ACall KAccessor 0 Release); (1, AAssign 0 (Some 9)); (1, ACall KAccessor 0 Release);
   (1, ADrop 0); (0, ACall KSetter 7 Release); (0, ACall KAccessor 0 Release)].
Example C96_plain_case :
  (forall f, In f sp_fields -> f_is_skipped f = false) /\
  (forall f ms k, In f sp_fields -> field_methods sp_ctx f = GOk ms -> In k (map m_kind ms) -> works sp_ctx f k = true) /\
  stores sp_ctx sp_fields [None; Some 3] [RustSem.VOnce None; RustSem.VCell (RustSem.VT 3)] /\ session_offered sp_ctx sp_fields sp_plan = true /\
  option_map fst (spec_session (fun _ => thirteen) 0 (map (view_of sp_ctx) sp_fields) sp_plan (at_start [None; Some 3])) =
    Some [ORet (AnVal 3); ORet (AnVal 13); OPanic; ORet (AnBool true); ORet (AnVal 3); ODone; ORet (AnVal 3); ORet (AnVal 13); ODone; OPanic; ODone; ORet (AnOpt (Some 13)); ORet (AnVal 7)] /\
  left_behind (impl_session (fun _ => thirteen) 0 SerdeProps.five sp_ctx sp_fields sp_plan (all_fresh [RustSem.VOnce None; RustSem.VCell (RustSem.VT 3)])) =
    Some ([ORet (AnVal 3); ORet (AnVal 13); OPanic; ORet (AnBool true); ORet (AnVal 3); ODone; ORet (AnVal 3); ORet (AnVal 13); ODone; OPanic; ODone; ORet (AnOpt (Some 13)); ORet (AnVal 7)],
      [(RustSem.VOnce (Some (RustSem.VT 7)), 0); (RustSem.VCell (RustSem.VT 9), 0)]).
Proof.
  split. { intros f [<-|[<-|[]]]; reflexivity. }
  split. { intros f ms k I M K. destruct I as [<-|[<-|[]]]; vm_compute in M; injection M as <-; vm_compute in K;
    repeat (destruct K as [<-|K]; [vm_compute; reflexivity|]); destruct K. }
  split; [repeat (split; [eexists; split; vm_compute; reflexivity|]); exact I|]. split; [vm_compute; reflexivity|]. split; vm_compute; reflexivity.
Qed.
