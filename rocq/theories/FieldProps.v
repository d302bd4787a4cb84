(** Properties of the emitted methods when used by one thread: C15, C16, C17, C47.
    [impl_run] runs emitted code (RustSem.v, FieldRun.v), [spec_run] is the optional
    cell of FieldSpec.v.  [works c f k]: method [k] is asked for, compiles (C38) and is
    not the fallible predicate of a lock (see C16_lock_predicate_refuted). *)
From Coq Require Import List Bool String Arith.
From Verif Require Import ProxyTypes ArgsModel CtxModel ArgsSpec ArgsFixtures ArgsProps RustAst
  CommonGen StructGen CodegenSpec CodegenProps RustSem FieldSpec FieldRun FieldSeq FieldStruct.
Import ListNotations.
Open Scope string_scope.

(** ** C15 *)

(** Whatever one thread does with the methods of a plain lazy field, it sees the optional
    cell with a builder: for every sequence of calls with results used at once. *)
Theorem C15_plain_lazy_refines : forall bld dflt user alive c f t ms l o w b,
  is_sync c f = false -> is_lazy c f = true ->
  field_type c f = GOk t -> field_methods c f = GOk ms ->
  (s_is_ref_counted (c_args c) = true -> alive = true) ->
  only_calls (works c f) l = true -> nothing_kept l = true ->
  forallb (sensible (view_of c f)) l = true -> rep t o = Some w ->
  exists os o' b' iu,
    spec_run bld dflt (mk_view (Lazy (is_fallible c f)) Direct true) l (mk_ust o [] b)
      = Some (os, mk_ust o' [] b') /\
    List.length os = List.length l /\
    impl_run bld (is_fallible c f) alive dflt user ms l (fresh w b) = Some (os, iu) /\
    rep t o' = Some (fld (i_st iu)) /\ calls (i_st iu) = b' /\ i_guards iu = [].
Proof. exact plain_lazy_refines. Qed.
(** What the emitted methods of a field do, starting with content [o]: answers, content
    of the storage, calls of the builder, guards still alive (may they write?). *)
Definition observed (bld : nat -> outcome nat nat) (c : sctx) (f : field) (l : list act) (o : option nat)
  : option (list obs * val * nat * list bool) :=
  match field_type c f, field_methods c f with
  | GOk t, GOk ms =>
      match rep t o with
      | Some w =>
          match impl_run bld (is_fallible c f) true 0 (fun _ => 0) ms l (fresh w 0) with
          | Some (os, iu) => Some (os, fld (i_st iu), calls (i_st iu), map fst (i_guards iu))
          | None => None
          end
      | None => None
      end
  | _, _ => None
  end.
(** A builder failing twice, then giving 10, 11, ... *)
Definition late (i : nat) : outcome nat nat :=
  match i with 0 => BErr 7 | 1 => BPanic | S (S j) => BOk (10 + j) end.
Definition steady (i : nat) : outcome nat nat := BOk (10 + i).

Definition lazy_all : field :=
  put_f_lazy h_on (put_f_accessor get_on (put_f_clearer h_on (put_f_predicate h_on
    (put_f_accessor_mut h_on (put_f_setter set_on fa))))).
Definition lazy_fallible : field := put_f_fallible (fall_on "E") lazy_all.
Definition story : list act :=
  [ACall KPredicate 0 Release; ACall KAccessor 0 Release; ACall KAccessor 0 Release;
   ACall KAccessor 0 Release; ACall KAccessor 0 Release; ACall KPredicate 0 Release;
   ACall KSetter 33 Release; ACall KAccessorMut 0 (Assign (Some 34)); ACall KClearer 0 Release;
   ACall KPredicate 0 Release; ACall KAccessor 0 Release].
Example C15_plain_lazy_refines_case :
  let f := lazy_fallible in
  let c := ctx_of plain_s [f] in
  is_sync c f = false /\ is_lazy c f = true /\ only_calls (works c f) story = true /\
  nothing_kept story = true /\ forallb (sensible (view_of c f)) story = true /\
  field_type c f = GOk (TOnce TT) /\
  observed late c f story None
  = Some ([ORet (AnBool false); ORet (AnErr 7); OPanic; ORet (AnVal 10); ORet (AnVal 10);
           ORet (AnBool true); ORet (AnOpt (Some 10)); ORet (AnVal 33); ORet (AnOpt (Some 34));
           ORet (AnBool false); ORet (AnVal 11)], VOnce (Some (VT 11)), 4, []).
Proof. vm_compute. repeat split. Qed.

(** The first read builds, later reads and predicates do not. *)
Theorem C15_one_build : forall bld dflt user alive c f t ms l w b n x,
  is_lazy c f = true -> field_type c f = GOk t -> field_methods c f = GOk ms ->
  (s_is_ref_counted (c_args c) = true -> alive = true) ->
  works c f KAccessor = true -> only_calls (works c f) l = true -> reads l = true ->
  rep t None = Some w -> bld b = BOk n ->
  exists iu,
    impl_run bld (is_fallible c f) alive dflt user ms (ACall KAccessor x Release :: l) (fresh w b)
      = Some (ORet (AnVal n) :: map (read_answer n) l, iu) /\
    rep t (Some n) = Some (fld (i_st iu)) /\ calls (i_st iu) = S b.
Proof. exact first_read. Qed.
Example C15_one_build_case :
  let f := lazy_all in
  let c := ctx_of (put_s_rc h_on plain_s) [f] in
  let l := [ACall KAccessor 0 Release; ACall KPredicate 0 Release; ACall KAccessor 0 Release] in
  is_lazy c f = true /\ s_is_ref_counted (c_args c) = true /\ works c f KAccessor = true /\
  only_calls (works c f) l = true /\ reads l = true /\
  observed steady c f (ACall KAccessor 0 Release :: l) None
  = Some ([ORet (AnVal 10); ORet (AnVal 10); ORet (AnBool true); ORet (AnVal 10)],
          VOnce (Some (VT 10)), 1, []).
Proof. vm_compute. repeat split. Qed.

(** A failing builder leaves the field as it was; the failure reaches the caller. *)
Theorem C15_failure_leaves_unset : forall bld dflt user alive c f t ms w b x,
  is_lazy c f = true -> field_type c f = GOk t -> field_methods c f = GOk ms ->
  (s_is_ref_counted (c_args c) = true -> alive = true) ->
  works c f KAccessor = true -> rep t None = Some w -> (forall n, bld b <> BOk n) ->
  exists iu,
    impl_run bld (is_fallible c f) alive dflt user ms [ACall KAccessor x Release] (fresh w b)
      = Some ([match bld b with
               | BErr e => if is_fallible c f then ORet (AnErr e) else OPanic
               | _ => OPanic
               end], iu) /\
    i_st iu = mk_st w 0 false (S b) /\ i_guards iu = [].
Proof. exact failed_read. Qed.
Example C15_failure_leaves_unset_case :
  let f := lazy_fallible in
  let c := ctx_of plain_s [f] in
  works c f KAccessor = true /\ (forall n, late 0 <> BOk n) /\
  observed late c f [ACall KAccessor 0 Release] None = Some ([ORet (AnErr 7)], VOnce None, 1, []).
Proof. vm_compute. repeat split; discriminate. Qed.

(** ** C16 *)

(** Two fields of any modes (plain, inner-mutable, sync or async, locked or not) with the
    same kind of content give the same results for the same calls, as long as no guard
    is kept, and end with the same content and the same number of builder calls.
    Full statement: for all methods that exist and compile.  Missing: the predicate of
    C16_lock_predicate_refuted, which [works] excludes. *)
Theorem C16_same_results_partial : forall bld dflt user alive c1 f1 t1 ms1 c2 f2 t2 ms2 l o w1 w2 b,
  f_skip f1 = false -> f_skip f2 = false ->
  same_content (settings_of c1 f1) (settings_of c2 f2) ->
  field_type c1 f1 = GOk t1 -> field_methods c1 f1 = GOk ms1 ->
  field_type c2 f2 = GOk t2 -> field_methods c2 f2 = GOk ms2 ->
  (s_is_ref_counted (c_args c1) || s_is_ref_counted (c_args c2) = true -> alive = true) ->
  only_calls (works c1 f1) l = true -> only_calls (works c2 f2) l = true -> nothing_kept l = true ->
  forallb (sensible (view_of c1 f1)) l = true -> rep t1 o = Some w1 -> rep t2 o = Some w2 ->
  exists os o' iu1 iu2,
    impl_run bld (is_fallible c1 f1) alive dflt user ms1 l (fresh w1 b) = Some (os, iu1) /\
    impl_run bld (is_fallible c2 f2) alive dflt user ms2 l (fresh w2 b) = Some (os, iu2) /\
    List.length os = List.length l /\
    rep t1 o' = Some (fld (i_st iu1)) /\ rep t2 o' = Some (fld (i_st iu2)) /\
    calls (i_st iu1) = calls (i_st iu2).
Proof. exact same_results. Qed.
Example C16_lazy_case :
  let f := lazy_fallible in
  let cp := ctx_of plain_s [f] in
  let cs := ctx_of sync_s [f] in
  let ca := ctx_of (put_s_rc h_on async_s) [f] in
  same_content (settings_of cp f) (settings_of cs f) /\
  only_calls (works cs f) story = true /\ only_calls (works ca f) story = true /\
  field_type cs f = GOk (TProxy false true) /\ field_type ca f = GOk (TProxy true true) /\
  option_map (fun r => fst (fst (fst r))) (observed late cs f story None)
  = option_map (fun r => fst (fst (fst r))) (observed late cp f story None) /\
  observed late ca f story None
  = Some ([ORet (AnBool false); ORet (AnErr 7); OPanic; ORet (AnVal 10); ORet (AnVal 10);
           ORet (AnBool true); ORet (AnOpt (Some 10)); ORet (AnVal 33); ORet (AnOpt (Some 34));
           ORet (AnBool false); ORet (AnVal 11)], VProxy true (Some (VT 11)), 4, []).
Proof. vm_compute. repeat split. Qed.
Definition opt_all : field :=
  put_f_optional (Some true) (put_f_accessor get_clone (put_f_clearer h_on (put_f_predicate h_on
    (put_f_setter set_on (put_f_accessor_mut h_on fa))))).
Definition opt_story : list act :=
  [ACall KPredicate 0 Release; ACall KSetter 5 Release; ACall KAccessor 0 Release;
   ACall KAccessorMut 0 (Assign None); ACall KAccessor 0 Release; ACall KSetter 6 Release;
   ACall KClearer 0 Release; ACall KPredicate 0 Release].
Example C16_optional_case :
  let f := opt_all in
  let fi := put_f_inner_mut (Some true) f in
  let fl := put_f_lock (Some true) f in
  let cp := ctx_of plain_s [f] in
  let ci := ctx_of plain_s [fi] in
  let cs := ctx_of sync_s [fl] in
  same_content (settings_of cp f) (settings_of ci fi) /\
  same_content (settings_of cp f) (settings_of cs fl) /\
  only_calls (works cp f) opt_story = true /\ only_calls (works ci fi) opt_story = true /\
  only_calls (works cs fl) opt_story = true /\ forallb (sensible (view_of cp f)) opt_story = true /\
  map (fun r => option_map (fun q => snd (fst (fst q))) r)
    [observed steady cp f opt_story None; observed steady ci fi opt_story None;
     observed steady cs fl opt_story None]
  = [Some VNone; Some (VCell VNone); Some (VLock false VNone)] /\
  map (fun r => option_map (fun q => fst (fst (fst q))) r)
    [observed steady cp f opt_story None; observed steady ci fi opt_story None;
     observed steady cs fl opt_story None]
  = let os := Some [ORet (AnBool false); ORet (AnOpt None); ORet (AnOpt (Some 5)); ORet (AnOpt (Some 5));
                    ORet (AnOpt None); ORet (AnOpt None); ORet (AnOpt (Some 6)); ORet (AnBool false)]
    in [os; os; os].
Proof. vm_compute. repeat split; discriminate. Qed.

(** The predicate of an optional field under a lock, fallible without being lazy,
    compiles but answers whether the lock was free: true for an empty field. *)
Theorem C16_lock_predicate_refuted :
  let f := put_f_fallible (fall_on "E") opt_all in
  let cp := ctx_of plain_s [f] in
  let cs := ctx_of sync_s [f] in
  same_content (settings_of cp f) (settings_of cs f) /\
  asked cp f KPredicate = true /\ asked cs f KPredicate = true /\
  plain_well_typed (settings_of cp f) KPredicate = true /\
  sync_well_typed (settings_of cs f) KPredicate = true /\
  observed steady cp f [ACall KPredicate 0 Release] None
  = Some ([ORet (AnBool false)], VNone, 0, []) /\
  observed steady cs f [ACall KPredicate 0 Release] None
  = Some ([ORet (AnBool true)], VLock false VNone, 0, []).
Proof. vm_compute. repeat split; discriminate. Qed.
(** It is the only such method: every other one that is asked for and compiles works. *)
Theorem C16_only_lock_predicate : forall c f k, asked c f k = true ->
  (if is_sync c f then sync_well_typed (settings_of c f) k
   else plain_well_typed (settings_of c f) k) = true ->
  works c f k = false ->
  k = KPredicate /\ is_sync c f = true /\ is_lazy c f = false /\ needs_lock c f = true /\
  is_fallible c f = true.
Proof. exact only_lock_predicate. Qed.

(** ** C17 *)

(** After any meaningful history of calls and guards on an inner-mutable field, a call
    panics exactly when a guard kept earlier conflicts with it, and then nothing changes. *)
Theorem C17_panics_exactly_on_conflict : forall bld dflt user alive c f t ms l o w b os u k n us,
  f_skip f = false -> is_sync c f = false -> is_lazy c f = false -> is_inner_mut c f = true ->
  field_type c f = GOk t -> field_methods c f = GOk ms ->
  (s_is_ref_counted (c_args c) = true -> alive = true) ->
  only_calls (works c f) l = true -> rep t o = Some w ->
  spec_run bld dflt (view_of c f) l (mk_ust o [] b) = Some (os, u) ->
  works c f k = true -> sensible (view_of c f) (ACall k n us) = true ->
  exists iu, impl_run bld (is_fallible c f) alive dflt user ms l (fresh w b) = Some (os, iu) /\
    let act := impl_act bld (is_fallible c f) alive dflt user ms (ACall k n us) iu in
    if conflicting k (map fst (i_guards iu))
    then act = Some (OPanic, iu)
    else exists an iu', act = Some (ORet an, iu').
Proof. exact inner_mut_guarded. Qed.
(** The same field under a lock of a sync struct waits instead. *)
Theorem C17_lock_waits_exactly_on_conflict : forall bld dflt user alive c f t ms l o w b os u k n us,
  f_skip f = false -> is_sync c f = true -> is_lazy c f = false -> needs_lock c f = true ->
  field_type c f = GOk t -> field_methods c f = GOk ms ->
  (s_is_ref_counted (c_args c) = true -> alive = true) ->
  only_calls (works c f) l = true -> rep t o = Some w ->
  spec_run bld dflt (view_of c f) l (mk_ust o [] b) = Some (os, u) ->
  works c f k = true -> sensible (view_of c f) (ACall k n us) = true ->
  exists iu, impl_run bld (is_fallible c f) alive dflt user ms l (fresh w b) = Some (os, iu) /\
    let act := impl_act bld (is_fallible c f) alive dflt user ms (ACall k n us) iu in
    if conflicting k (map fst (i_guards iu))
    then act = Some (OWait, iu)
    else exists an iu', act = Some (ORet an, iu').
Proof. exact locked_guarded. Qed.
Definition cell_field : field :=
  put_f_inner_mut (Some true) (put_f_accessor get_on (put_f_accessor_mut h_on (put_f_setter set_on fa))).
Definition cell_story : list act :=
  [ACall KAccessor 0 Keep; ACall KAccessor 0 Keep; ACall KAccessorMut 0 Keep; APeek 1; ADrop 0;
   ACall KSetter 8 Release; ADrop 0; ACall KSetter 8 Release; ACall KAccessorMut 0 Keep;
   ACall KAccessor 0 Release; AAssign 0 (Some 9); APeek 0].
Example C17_case :
  let f := cell_field in
  let c := ctx_of plain_s [f] in
  is_sync c f = false /\ is_lazy c f = false /\ is_inner_mut c f = true /\
  only_calls (works c f) cell_story = true /\ field_type c f = GOk (TCell TT) /\
  (match spec_run steady 0 (view_of c f) cell_story (mk_ust (Some 3) [] 0) with
   | Some _ => True | None => False end) /\
  works c f KAccessor = true /\ works c f KSetter = true /\
  observed steady c f cell_story (Some 3)
  = Some ([ORet (AnVal 3); ORet (AnVal 3); OPanic; ORet (AnVal 3); ODone; OPanic; ODone;
           ORet (AnVal 3); ORet (AnVal 8); OPanic; ODone; ORet (AnVal 9)], VCell (VT 9), 0, [true]) /\
  conflicting KAccessor [true] = true /\ conflicting KAccessor [false; false] = false.
Proof. vm_compute. repeat split. Qed.
Example C17_lock_case :
  let f := put_f_lock (Some true) (put_f_reader h_on (put_f_writer h_on fa)) in
  let c := ctx_of async_s [f] in
  let l := [ACall KReader 0 Keep; ACall KReader 0 Keep] in
  is_sync c f = true /\ is_lazy c f = false /\ needs_lock c f = true /\
  only_calls (works c f) l = true /\ works c f KWriter = true /\
  field_type c f = GOk (TLock true TT) /\
  observed steady c f (l ++ [ACall KWriter 0 Release])%list (Some 3)
  = Some ([ORet (AnVal 3); ORet (AnVal 3); OWait], VLock true (VT 3), 0, [false; false]).
Proof. vm_compute. repeat split. Qed.

(** ** C47 *)

(** Every history of calls in which guards are kept, looked through, assigned through and
    dropped is a history of the optional cell with guards. *)
Theorem C47_guards_refine : forall bld dflt user alive c f t ms l o w b os u,
  f_skip f = false -> field_type c f = GOk t -> field_methods c f = GOk ms ->
  (s_is_ref_counted (c_args c) = true -> alive = true) ->
  only_calls (works c f) l = true -> rep t o = Some w ->
  spec_run bld dflt (view_of c f) l (mk_ust o [] b) = Some (os, u) ->
  exists iu, impl_run bld (is_fallible c f) alive dflt user ms l (fresh w b) = Some (os, iu) /\
    rep t (u_val u) = Some (fld (i_st iu)) /\ calls (i_st iu) = u_builds u /\
    map fst (i_guards iu) = map gd_write (u_guards u).
Proof. exact guards_refine. Qed.
(** A lazy sync or async field: a call waits exactly when a kept guard excludes it; for
    an async field any guard excludes a read. *)
Theorem C47_lazy_waits_exactly_on_conflict : forall bld dflt user alive c f t ms l o w b os u k n us,
  is_sync c f = true -> is_lazy c f = true -> field_type c f = GOk t -> field_methods c f = GOk ms ->
  (s_is_ref_counted (c_args c) = true -> alive = true) ->
  only_calls (works c f) l = true -> rep t o = Some w ->
  spec_run bld dflt (view_of c f) l (mk_ust o [] b) = Some (os, u) ->
  works c f k = true -> sensible (view_of c f) (ACall k n us) = true ->
  exists iu, impl_run bld (is_fallible c f) alive dflt user ms l (fresh w b) = Some (os, iu) /\
    let act := impl_act bld (is_fallible c f) alive dflt user ms (ACall k n us) iu in
    if lazy_conflicting (is_async c f) k (map fst (i_guards iu))
    then act = Some (OWait, iu)
    else exists ob iu', act = Some (ob, iu') /\ ob <> OWait.
Proof. exact lazy_guarded_runs. Qed.
Definition lazy_guarded : field := put_f_writer h_on lazy_all.
Definition guard_story : list act :=
  [ACall KAccessor 0 Keep; ACall KPredicate 0 Release; ADrop 0; ACall KWriter 0 Keep; APeek 0;
   AAssign 0 None; ACall KPredicate 0 Release; AAssign 0 (Some 20); ADrop 0; ACall KAccessor 0 Keep;
   ACall KClearer 0 Release].
Example C47_case :
  let f := lazy_guarded in
  let c := ctx_of sync_s [f] in
  is_sync c f = true /\ is_lazy c f = true /\ only_calls (works c f) guard_story = true /\
  field_type c f = GOk (TProxy false false) /\
  (match spec_run steady 0 (view_of c f) guard_story (mk_ust None [] 0) with
   | Some _ => True | None => False end) /\
  observed steady c f guard_story None
  = Some ([ORet (AnVal 10); ORet (AnBool true); ODone; ORet AnWriter; ORet AnWriter; ODone;
           ORet (AnBool false); ODone; ODone; ORet (AnVal 20); OWait], VProxy false (Some (VT 20)), 1, [false]).
Proof. vm_compute. repeat split. Qed.
(** Two read guards of a lazy field may be alive together: not if the field is async. *)
Theorem C47_shared_reading_refuted :
  let f := lazy_all in
  let cs := ctx_of sync_s [f] in
  let ca := ctx_of async_s [f] in
  let l := [ACall KAccessor 0 Keep; ACall KAccessor 0 Keep] in
  only_calls (works cs f) l = true /\ only_calls (works ca f) l = true /\
  observed steady cs f l (Some 3)
  = Some ([ORet (AnVal 3); ORet (AnVal 3)], VProxy false (Some (VT 3)), 0, [false; false]) /\
  observed steady ca f l (Some 3)
  = Some ([ORet (AnVal 3); OWait], VProxy true (Some (VT 3)), 0, [false]).
Proof. vm_compute. repeat split. Qed.

Print Assumptions C15_plain_lazy_refines.
Print Assumptions C15_one_build.
Print Assumptions C15_failure_leaves_unset.
Print Assumptions C16_same_results_partial.
Print Assumptions C16_lock_predicate_refuted.
Print Assumptions C16_only_lock_predicate.
Print Assumptions C17_panics_exactly_on_conflict.
Print Assumptions C17_lock_waits_exactly_on_conflict.
Print Assumptions C47_guards_refine.
Print Assumptions C47_lazy_waits_exactly_on_conflict.
Print Assumptions C47_shared_reading_refuted.
