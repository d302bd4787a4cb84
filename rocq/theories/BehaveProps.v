(** C82, C83: from the tokens of the attributes to what a program using the struct sees. *)
From Coq Require Import List Bool String.
From Verif Require Import ProxyTypes ArgsModel CtxModel ArgsSpec TokenSpec ParseInput ParseModel ParseSpec ParseForms GrammarSpec GrammarProps
  RustAst RustSem CommonGen StructGen CodegenSpec FieldSpec FieldRun BuilderSpec BuilderModel SerdeModel
  WrittenSpec WrittenProofs WrittenNames WrittenProps SignSpec SignTypes SignProps MadeSpec MadeProofs MadeProps BehaveSpec BehaveModel BehaveProofs.
Import ListNotations.
Open Scope string_scope.
Open Scope list_scope.

(** ** C82 *)
(** A call by name runs the method that the words give the name. *)
Theorem C82_called : forall ft c ss all x f ms a b,
  struct_as ft ss (c_args c) -> Forall2 (read_as ft) all (c_input_fields c) -> read_as ft x f ->
  field_methods c f = GOk ms -> NoDup (map m_name ms) ->
  (means ss all x (f_ident f) a b <-> resolve ms a = Some b).
Proof. exact (fun ft c ss all x f ms a b HS HF R => w_means ft c ss all HS HF x f R ms a b). Qed.
Print Assumptions C82_called.
(** Every program is answered as by the cell that the words describe, guards and all. *)
Theorem C82_behaves : forall ft c ss all x f bld dflt user alive t ms q p l o w b os u,
  struct_as ft ss (c_args c) -> Forall2 (read_as ft) all (c_input_fields c) -> read_as ft x f -> ~ skipped x ->
  field_type c f = GOk t -> field_methods c f = GOk ms -> NoDup (map m_name ms) ->
  (on_in "rc" ss -> alive = true) -> facts_told ss all x q ->
  Forall2 (means ss all x (f_ident f)) p l -> only_calls (sound_call q) l = true -> rep t o = Some w ->
  spec_run bld dflt (told_view q) l (mk_ust o [] b) = Some (os, u) ->
  exists iu, named_run bld (q_fallible q) alive dflt user ms p (fresh w b) = Some (os, iu) /\
    rep t (u_val u) = Some (RustSem.fld (i_st iu)) /\ RustSem.calls (i_st iu) = u_builds u /\
    map fst (i_guards iu) = map gd_write (u_guards u).
Proof.
  exact (fun ft c ss all x f bld dflt user alive t ms q p l o w b os u HS HF R =>
    w_behaves ft c ss all HS HF x f R bld dflt user alive t ms q p l o w b os u).
Qed.
Print Assumptions C82_behaves.
(** If no guard is kept there is always an answer, that of a bare cell. *)
Theorem C82_unkept : forall ft c ss all x f bld dflt user alive t ms q p l o w b,
  struct_as ft ss (c_args c) -> Forall2 (read_as ft) all (c_input_fields c) -> read_as ft x f -> ~ skipped x ->
  field_type c f = GOk t -> field_methods c f = GOk ms -> NoDup (map m_name ms) ->
  (on_in "rc" ss -> alive = true) -> facts_told ss all x q ->
  Forall2 (means ss all x (f_ident f)) p l -> only_calls (sound_call q) l = true -> nothing_kept l = true ->
  forallb (sensible (told_view q)) l = true -> rep t o = Some w ->
  exists os o' b' iu,
    spec_run bld dflt (mk_view (v_shape (told_view q)) Direct true) l (mk_ust o [] b) = Some (os, mk_ust o' [] b') /\
    List.length os = List.length p /\
    named_run bld (q_fallible q) alive dflt user ms p (fresh w b) = Some (os, iu) /\
    rep t o' = Some (RustSem.fld (i_st iu)) /\ RustSem.calls (i_st iu) = b' /\ i_guards iu = [].
Proof.
  exact (fun ft c ss all x f bld dflt user alive t ms q p l o w b HS HF R NS T M D A Q =>
    w_unkept ft c ss all HS HF x f R bld dflt user alive t ms q p l o w b NS T M D A Q).
Qed.
Print Assumptions C82_unkept.
(** A call while guards are kept panics, waits or answers as the words say. *)
Theorem C82_conflicts : forall ft c ss all x f bld dflt user alive t ms q p l o w b os u name k n us,
  struct_as ft ss (c_args c) -> Forall2 (read_as ft) all (c_input_fields c) -> read_as ft x f -> ~ skipped x ->
  field_type c f = GOk t -> field_methods c f = GOk ms -> NoDup (map m_name ms) ->
  (on_in "rc" ss -> alive = true) -> facts_told ss all x q -> hands_guards q = true ->
  Forall2 (means ss all x (f_ident f)) p l -> only_calls (sound_call q) l = true -> rep t o = Some w ->
  spec_run bld dflt (told_view q) l (mk_ust o [] b) = Some (os, u) ->
  method_for ss all x k -> name_for ss x (f_ident f) k name -> sound_call q k = true ->
  sensible (told_view q) (ACall k n us) = true ->
  exists iu, named_run bld (q_fallible q) alive dflt user ms p (fresh w b) = Some (os, iu) /\
    let act := named_act bld (q_fallible q) alive dflt user ms (NCall name n us) iu in
    match refusal q k (map fst (i_guards iu)) with
    | Some ob => act = Some (ob, iu)
    | None => exists ob iu', act = Some (ob, iu') /\ ob <> OWait /\ (q_lazy q = false -> exists an, ob = ORet an)
    end.
Proof.
  exact (fun ft c ss all x f bld dflt user alive t ms q p l o w b os u name k n us HS HF R =>
    w_conflicts ft c ss all HS HF x f R bld dflt user alive t ms q p l o w b os u name k n us).
Qed.
Print Assumptions C82_conflicts.
(** Default puts in the content that the words say. *)
Theorem C82_starts : forall ft c ss x f bld alive dflt user t,
  struct_as ft ss (c_args c) -> read_as ft x f -> ~ skipped x -> field_type c f = GOk t ->
  exists v, default_value_of bld alive dflt user c f = Some v /\ forall o, starts_as dflt user ss x o -> rep t o = Some v.
Proof. exact (fun ft c ss x f bld alive dflt user t HS R => w_default_starts ft c ss HS x f R bld alive dflt user t). Qed.
Print Assumptions C82_starts.

(** ** C83 *)
(** The form which the words describe is the form that the builder has. *)
Theorem C83_form : forall ft c ss all dflt user es,
  struct_as ft ss (c_args c) -> Forall2 (read_as ft) all (c_input_fields c) ->
  (form_told dflt user ss (combine (map f_ident (c_input_fields c)) all) es <-> es = entries dflt user c).
Proof. exact (fun ft c ss all dflt user es HS HF => w_form ft c ss all HS HF dflt user es). Qed.
Print Assumptions C83_form.
(** Every sequence of setter calls and build() calls is answered as by that form. *)
Theorem C83_builds_as_told : forall ft c ss all dflt user post l es rs g,
  struct_as ft ss (c_args c) -> Forall2 (read_as ft) all (c_input_fields c) ->
  NoDup (map f_ident (all_fields c)) -> generated c ->
  form_told dflt user ss (combine (map f_ident (c_input_fields c)) all) es ->
  spec_forms es l blank = Some (rs, g) ->
  exists qs b, build_run dflt user c post l new_builder = Some (qs, b) /\ Forall2 (answers c post) qs rs /\ shows_form b g.
Proof. exact (fun ft c ss all dflt user post l es rs g HS HF => w_builds_as ft c ss all HS HF dflt user post l es rs g). Qed.
Print Assumptions C83_builds_as_told.

(** ** Cases *)
(** [#[fxstruct(builder)]] and the fields
    [#[fieldx(lazy("make_it"), get(clone), set("put"), predicate("known"), clearer("forget"))]],
    [#[fieldx(inner_mut, get, get_mut, set)]], [#[fieldx(sync, lock, optional, reader, writer("open"))]],
    [#[fieldx(default("5"))]], [#[fieldx(builder(off))]] and [#[fieldx(skip)]]. *)
Definition h_struct : list tok := [ww "builder"].
Definition h_a : list tok :=
  [ww "lazy"; pp [ss "make_it"]; cc; ww "get"; pp [ww "clone"]; cc; ww "set"; pp [ss "put"]; cc; ww "predicate"; pp [ss "known"]; cc;
   ww "clearer"; pp [ss "forget"]].
Definition h_b : list tok := [ww "inner_mut"; cc; ww "get"; cc; ww "get_mut"; cc; ww "set"].
Definition h_c : list tok := [ww "sync"; cc; ww "lock"; cc; ww "optional"; cc; ww "reader"; cc; ww "writer"; pp [ss "open"]].
Definition h_d : list tok := [ww "default"; pp [ss "5"]].
Definition h_e : list tok := [ww "builder"; pp [ww "off"]].
Definition h_f : list tok := [ww "skip"].
Definition h_sources : list source :=
  map (fun t => mk_source [FList t] (terminated t ++ [])) [h_a; h_b; h_c; h_d; h_e; h_f].
Definition h_fields : list field :=
  flat_map (fun p => w_read (fst p) (snd p)) (combine ["a"; "b"; "c"; "d"; "e"; "f"] h_sources).
Definition h_ctx : sctx :=
  match read_struct every_feature h_struct with
  | Some s => mk_sctx "S" "pub" s h_fields
  | None => w_ctx
  end.
Lemma h_struct_as : struct_as every_feature (terminated h_struct) (c_args h_ctx).
Proof. exists h_struct. split; [apply w_arguments; reflexivity|vm_compute; reflexivity]. Qed.
Lemma h_read_as : Forall2 (read_as every_feature) h_sources (c_input_fields h_ctx).
Proof.
  apply Forall2_cons; [apply (m_row _ "a"); [reflexivity|vm_compute; reflexivity]|].
  apply Forall2_cons; [apply (m_row _ "b"); [reflexivity|vm_compute; reflexivity]|].
  apply Forall2_cons; [apply (m_row _ "c"); [reflexivity|vm_compute; reflexivity]|].
  apply Forall2_cons; [apply (m_row _ "d"); [reflexivity|vm_compute; reflexivity]|].
  apply Forall2_cons; [apply (m_row _ "e"); [reflexivity|vm_compute; reflexivity]|].
  apply Forall2_cons; [apply (m_row _ "f"); [reflexivity|vm_compute; reflexivity]|].
  apply Forall2_nil.
Qed.
Definition h_field (n : nat) : field := nth n (c_input_fields h_ctx) (bare_field "none" "T").
Definition h_methods (n : nat) : list mdecl := match field_methods h_ctx (h_field n) with GOk ms => ms | _ => [] end.
Definition h_kinds (p : list nact) (n : nat) : list act := match resolve_all (h_methods n) p with Some l => l | None => [] end.
Definition ten (n : nat) : outcome nat nat := BOk (10 + n).
Definition h_seen (p : list nact) (n : nat) (o : option nat) : option (list obs * val * nat * list bool) :=
  match field_type h_ctx (h_field n) with
  | GOk t => match rep t o with
    | Some w => option_map (fun r => (fst r, RustSem.fld (i_st (snd r)), RustSem.calls (i_st (snd r)), map fst (i_guards (snd r))))
        (named_run ten false true 0 (fun _ => 0) (h_methods n) p (fresh w 0))
    | None => None
    end
  | _ => None
  end.
(** The lazy field without kept guards. *)
Definition p_a : list nact :=
  [NCall "known" 0 Release; NCall "a" 0 Release; NCall "known" 0 Release; NCall "put" 7 Release; NCall "forget" 0 Release; NCall "a" 0 Release].
(** The cell with kept guards: two readers, a refused writer. *)
Definition p_b : list nact :=
  [NCall "b" 0 Keep; NCall "b" 0 Keep; NCall "b_mut" 0 Keep; NDrop 0; NDrop 0; NCall "b_mut" 0 Keep; NAssign 0 (Some 9); NDrop 0; NCall "set_b" 8 Release].
(** The lock: the writer waits for the reader of the same thread, for ever. *)
Definition p_c : list nact := [NCall "read_c" 0 Keep; NCall "open" 0 Keep; NDrop 0; NCall "open" 0 Release].
Lemma h_at n x f : nth_error h_sources n = Some x -> nth_error (c_input_fields h_ctx) n = Some f -> read_as every_feature x f.
Proof. apply pair_at, h_read_as. Qed.
Definition h_facts (n : nat) : facts := facts_of (cfg_of h_ctx (h_field n)) (is_sync h_ctx (h_field n)).
Lemma h_told n x : nth_error h_sources n = Some x -> nth_error (c_input_fields h_ctx) n = Some (h_field n) ->
  facts_told (terminated h_struct) h_sources x (h_facts n).
Proof.
  intros X F. pose proof (h_at n x (h_field n) X F) as R.
  apply (w_facts every_feature h_ctx (terminated h_struct) h_struct_as x (h_field n) R h_sources h_read_as). reflexivity.
Qed.
(** The hypotheses for the fields: the words mean the calls, the calls are sound. *)
Lemma h_means n x p : nth_error h_sources n = Some x -> nth_error (c_input_fields h_ctx) n = Some (h_field n) ->
  field_methods h_ctx (h_field n) = GOk (h_methods n) -> resolve_all (h_methods n) p = Some (h_kinds p n) ->
  Forall2 (means (terminated h_struct) h_sources x (f_ident (h_field n))) p (h_kinds p n).
Proof.
  intros X F M E. pose proof (h_at n x (h_field n) X F) as R.
  exact (w_resolved_all every_feature h_ctx (terminated h_struct) h_sources h_struct_as h_read_as x (h_field n) R (h_methods n) p (h_kinds p n) M E).
Qed.
Lemma h_unskipped n x : nth_error h_sources n = Some x -> nth_error (c_input_fields h_ctx) n = Some (h_field n) -> f_skip (h_field n) = false -> ~ skipped x.
Proof.
  intros X F E K. pose proof (h_at n x (h_field n) X F) as R. apply (f_skipped every_feature x (h_field n) R) in K. congruence.
Qed.
Example C82_case : forall n p o, In (n, p, o) [(0, p_a, None); (1, p_b, Some 3); (2, p_c, Some 4)] ->
  exists x, nth_error h_sources n = Some x /\ read_as every_feature x (h_field n) /\ ~ skipped x /\
    facts_told (terminated h_struct) h_sources x (h_facts n) /\
    Forall2 (means (terminated h_struct) h_sources x (f_ident (h_field n))) p (h_kinds p n) /\
    only_calls (sound_call (h_facts n)) (h_kinds p n) = true /\
    field_methods h_ctx (h_field n) = GOk (h_methods n) /\ NoDup (map m_name (h_methods n)) /\
    spec_run ten 0 (told_view (h_facts n)) (h_kinds p n) (mk_ust o [] 0) <> None.
Proof.
  intros n p o [E|[E|[E|[]]]]; injection E as <- <- <-.
  - assert (F : nth_error (c_input_fields h_ctx) 0 = Some (h_field 0)) by (vm_compute; reflexivity).
    assert (M : field_methods h_ctx (h_field 0) = GOk (h_methods 0)) by (vm_compute; reflexivity).
    assert (N : map m_name (h_methods 0) = ["a"; "put"; "forget"; "known"]) by (vm_compute; reflexivity).
    eexists. split; [reflexivity|]. split; [exact (h_at 0 _ _ eq_refl F)|].
    split; [apply (h_unskipped 0 _ eq_refl F); vm_compute; reflexivity|]. split; [exact (h_told 0 _ eq_refl F)|].
    split; [apply (h_means 0 _ p_a eq_refl F M); vm_compute; reflexivity|]. split; [vm_compute; reflexivity|]. split; [exact M|].
    rewrite N. split; [repeat constructor; simpl; intuition discriminate|vm_compute; discriminate].
  - assert (F : nth_error (c_input_fields h_ctx) 1 = Some (h_field 1)) by (vm_compute; reflexivity).
    assert (M : field_methods h_ctx (h_field 1) = GOk (h_methods 1)) by (vm_compute; reflexivity).
    assert (N : map m_name (h_methods 1) = ["b"; "b_mut"; "set_b"]) by (vm_compute; reflexivity).
    eexists. split; [reflexivity|]. split; [exact (h_at 1 _ _ eq_refl F)|].
    split; [apply (h_unskipped 1 _ eq_refl F); vm_compute; reflexivity|]. split; [exact (h_told 1 _ eq_refl F)|].
    split; [apply (h_means 1 _ p_b eq_refl F M); vm_compute; reflexivity|]. split; [vm_compute; reflexivity|]. split; [exact M|].
    rewrite N. split; [repeat constructor; simpl; intuition discriminate|vm_compute; discriminate].
  - assert (F : nth_error (c_input_fields h_ctx) 2 = Some (h_field 2)) by (vm_compute; reflexivity).
    assert (M : field_methods h_ctx (h_field 2) = GOk (h_methods 2)) by (vm_compute; reflexivity).
    assert (N : map m_name (h_methods 2) = ["read_c"; "open"]) by (vm_compute; reflexivity).
    eexists. split; [reflexivity|]. split; [exact (h_at 2 _ _ eq_refl F)|].
    split; [apply (h_unskipped 2 _ eq_refl F); vm_compute; reflexivity|]. split; [exact (h_told 2 _ eq_refl F)|].
    split; [apply (h_means 2 _ p_c eq_refl F M); vm_compute; reflexivity|]. split; [vm_compute; reflexivity|]. split; [exact M|].
    rewrite N. split; [repeat constructor; simpl; intuition discriminate|vm_compute; discriminate].
Qed.
Example C82_seen :
  h_seen p_a 0 None = Some ([ORet (AnBool false); ORet (AnVal 10); ORet (AnBool true); ORet (AnOpt (Some 10)); ORet (AnOpt (Some 7)); ORet (AnVal 11)],
                            VOnce (Some (VT 11)), 2, []) /\
  nothing_kept (h_kinds p_a 0) = true /\ forallb (sensible (told_view (h_facts 0))) (h_kinds p_a 0) = true /\
  h_seen p_b 1 (Some 3) = Some ([ORet (AnVal 3); ORet (AnVal 3); OPanic; ODone; ODone; ORet (AnVal 3); ODone; ODone; ORet (AnVal 9)],
                                VCell (VT 8), 0, []) /\
  hands_guards (h_facts 1) = true /\ refusal (h_facts 1) KAccessorMut [false; false] = Some OPanic /\
  h_seen p_c 2 (Some 4) = Some ([ORet (AnOpt (Some 4)); OWait], VLock false (VSome (VT 4)), 0, [false]) /\
  hands_guards (h_facts 2) = true /\ refusal (h_facts 2) KWriter [false] = Some OWait.
Proof. vm_compute. repeat split. Qed.
(** Default: the lazy field is empty, the field with a default has it. *)
Example C82_starts_case : forall n x, nth_error h_sources n = Some x -> 
  forall o, In (n, o) [(0, None); (1, Some 0); (2, None); (3, Some 5); (4, Some 0)] ->
  starts_as 0 (fun _ => 5) (terminated h_struct) x o.
Proof.
  intros n x X o I. destruct (nth_error (c_input_fields h_ctx) n) as [f|] eqn:F.
  - apply (w_starts every_feature h_ctx (terminated h_struct) h_struct_as x f (h_at n x f X F)).
    assert (E : forall m g, nth_error (c_input_fields h_ctx) m = Some g -> g = h_field m)
      by (intros m g G; symmetry; exact (nth_error_nth (c_input_fields h_ctx) m (bare_field "none" "T") G)).
    apply E in F. subst f. clear X E.
    destruct I as [I|[I|[I|[I|[I|[]]]]]]; injection I as <- <-; vm_compute; reflexivity.
  - exfalso. assert (L : List.length (c_input_fields h_ctx) = 6) by (vm_compute; reflexivity). apply nth_error_None in F. rewrite L in F.
    destruct I as [I|[I|[I|[I|[I|[]]]]]]; injection I as <- <-; repeat apply le_S_n in F; inversion F.
Qed.
Definition h_entries : list entry :=
  [ mk_entry "a" true false (Some None); mk_entry "b" true true None; mk_entry "c" true false (Some None);
    mk_entry "d" true false (Some (Some 5)); mk_entry "e" false false (Some (Some 0)) ].
Example C83_case :
  form_told 0 (fun _ => 5) (terminated h_struct) (combine (map f_ident (c_input_fields h_ctx)) h_sources) h_entries /\
  NoDup (map f_ident (all_fields h_ctx)) /\ generated h_ctx /\
  (exists g, spec_forms h_entries [BSet "c" 2; BBuild; BSet "b" 7; BBuild] blank =
    Some ([Refused "b"; Handed [("a", None); ("b", Some 7); ("c", Some 2); ("d", Some 5); ("e", Some 0)]], g)) /\
  option_map fst (build_run 0 (fun _ => 5) h_ctx (fun _ => BPanic) [BSet "c" 2; BBuild; BSet "b" 7; BBuild] new_builder) =
    Some [(BMissing "b", []);
          (BDone [("a", VOnce None); ("b", VCell (VT 7)); ("c", VLock false (VSome (VT 2))); ("d", VT 5); ("e", VT 0)], [])].
Proof.
  split; [apply (w_form every_feature h_ctx (terminated h_struct) h_sources h_struct_as h_read_as); vm_compute; reflexivity|].
  assert (N : map f_ident (all_fields h_ctx) = ["a"; "b"; "c"; "d"; "e"; "f"]) by (vm_compute; reflexivity).
  split; [rewrite N; repeat constructor; simpl; intuition discriminate|].
  assert (L : builder_input h_ctx = map h_field [0; 1; 2; 3; 4]) by (vm_compute; reflexivity).
  split.
  - unfold generated. rewrite L. intros f I. apply in_map_iff in I. destruct I as (n & <- & I).
    destruct I as [<-|[<-|[<-|[<-|[<-|[]]]]]]; eexists; eexists; split; vm_compute; reflexivity.
  - split; [eexists; vm_compute; reflexivity|vm_compute; reflexivity].
Qed.
