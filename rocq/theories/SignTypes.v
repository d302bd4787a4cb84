(** Proofs for C79: the signatures. *)
From Coq Require Import List Bool String Ascii.
From Verif Require Import ArgsModel CtxModel ArgsSpec TokenSpec ParseInput ParseModel ParseSpec ParseFacts ParseForms ParseDefault GrammarSpec GrammarProofs
  RustAst CommonGen PlainGen SyncGen StructGen CodegenSpec CodegenStruct WrittenSpec WrittenProofs WrittenNames SignSpec SignProofs SignMethods.
Import ListNotations.
Open Scope string_scope.
Open Scope list_scope.

(** ** From the settings *)
Definition facts_of (g : fcfg) (sync : bool) : facts :=
  mk_facts sync (g_async g) (g_lazy g) (g_optional g) (g_lock g) (g_inner_mut g) (g_fallible g) (g_copy g) (g_clone g)
    (mode_word (g_mode g)) (g_set_into g).
Definition sig_of (m : mdecl) : sig := (m_async m, m_self m, m_arg m, m_ret m).
Section Settings.
  Variable g : fcfg.
  Definition fits (sync : bool) (r : gres (list mdecl)) : Prop :=
    forall l m, r = GOk l -> In m l -> sig_of m = signature (facts_of g sync) (m_kind m).
  Ltac try_type H :=
    match type of H with context [fallible_return_type ?g ?t] =>
      unfold fallible_return_type in H; destruct (g_fallible g) eqn:?; [destruct (g_error_known g) eqn:?|]; cbn [gbind] in H; try discriminate
    end.
  Ltac settle := rewrite ?andb_false_r in *; unfold sig_of, signature, sync_sig, plain_sig, guarded, read_guard, holds, or_error, by_value, unpicked, ref_unless, given_type, facts_of,
      mapped_read, maybe_optional, arg_ty, opt_ref_t, ty_ref_t in *; cbn in *;
    repeat match goal with E : ?b = true |- context [?b] => rewrite E | E : ?b = false |- context [?b] => rewrite E end; cbn in *; rewrite ?andb_false_r in *; cbn in *;
    repeat (first [reflexivity|discriminate|match goal with |- context [if ?b then _ else _] => destruct b eqn:?; cbn in * end
      |match goal with |- context [match ?b with _ => _ end] => destruct b eqn:?; cbn in * end]).
  Ltac fit := intros l m H I;
    repeat first
    [ discriminate
    | injection H as <-; simpl in I; destruct I as [<-|[]]; settle
    | injection H as <-; destruct I
    | try_type H
    | match type of H with context [if ?b then _ else _] => destruct b eqn:?; cbn [gbind] in H end ].
  Lemma fits_accessor : fits false (plain_accessor g).
  Proof. unfold plain_accessor. rewrite (orb_comm (g_clone g)). fit. Qed.
  Lemma fits_accessor_mut : fits false (plain_accessor_mut g).
  Proof. unfold plain_accessor_mut. fit. Qed.
  Lemma fits_setter : fits false (plain_setter g).
  Proof. unfold plain_setter. fit. Qed.
  Lemma fits_clearer : fits false (plain_clearer g).
  Proof. unfold plain_clearer. fit. Qed.
  Lemma fits_predicate : fits false (plain_predicate g).
  Proof. unfold plain_predicate. fit. Qed.
  Lemma fits_accessor_s : fits true (sync_accessor g).
  Proof. unfold sync_accessor, reader_method. rewrite (orb_comm (g_clone g)). fit. Qed.
  Lemma fits_accessor_mut_s : fits true (sync_accessor_mut g).
  Proof. unfold sync_accessor_mut. fit. Qed.
  Lemma fits_reader_s : fits true (sync_reader g).
  Proof. unfold sync_reader, reader_method. fit. Qed.
  Lemma fits_writer_s : fits true (sync_writer g).
  Proof. unfold sync_writer, wrapper_type_ok. fit. Qed.
  Lemma fits_setter_s : fits true (sync_setter g).
  Proof. unfold sync_setter. fit. Qed.
  Lemma fits_clearer_s : fits true (sync_clearer g).
  Proof. unfold sync_clearer. fit. Qed.
  Lemma fits_predicate_s : fits true (sync_predicate g).
  Proof. unfold sync_predicate. fit. Qed.
  Ltac parts H I :=
    repeat match type of H with gbind ?r _ = _ => destruct r eqn:?; cbn [gbind] in H; try discriminate end;
    injection H as <-; rewrite ?in_app_iff in I.
  Lemma fits_plain : fits false (plain_methods g).
  Proof.
    intros l m H I. unfold plain_methods in H. destruct (g_skip g); [injection H as <-; destruct I|].
    parts H I. destruct I as [I|[I|[I|[I|I]]]];
      [eapply fits_accessor|eapply fits_accessor_mut|eapply fits_setter|eapply fits_clearer|eapply fits_predicate]; eassumption.
  Qed.
  Lemma fits_sync : fits true (sync_methods g).
  Proof.
    intros l m H I. unfold sync_methods in H. destruct (g_skip g); [injection H as <-; destruct I|].
    parts H I. destruct I as [I|[I|[I|[I|[I|[I|I]]]]]];
      [eapply fits_accessor_s|eapply fits_accessor_mut_s|eapply fits_reader_s|eapply fits_writer_s|eapply fits_setter_s|eapply fits_clearer_s|eapply fits_predicate_s]; eassumption.
  Qed.
End Settings.

(** ** From the words *)
Section Context.
  Variables (ft : features) (c : sctx) (ss : list (list tok)).
  Hypothesis HS : struct_as ft ss (c_args c).
  Section OneField.
  Variables (x : source) (f : field).
  Hypothesis R : read_as ft x f.
  Let VS := struct_voted ft ss _ HS.
  Let VF := field_voted ft x f R.
  Lemma four (o1 o2 o3 o4 : option bool) (p1 p2 p3 p4 : vote) : heeds p1 o1 -> heeds p2 o2 -> heeds p3 o3 -> heeds p4 o4 ->
    (obool_or (or_else o1 (or_else o2 (or_else o3 o4))) false = true <-> decide [p1; p2; p3; p4] False).
  Proof.
    intros H1 H2 H3 H4. replace (or_else o1 (or_else o2 (or_else o3 o4))) with (first_some [o1; o2; o3; o4]) by (destruct o1, o2, o3, o4; reflexivity).
    apply decide_first; [repeat constructor; assumption|apply no].
  Qed.
  Lemma w_converts : is_setter_into c f = true <-> converts ss x.
  Proof. apply four; [apply (v_set_into _ _ _ _ _ _ _ _ _ VF)|apply (v_into _ _ _ _ _ _ _ _ _ VF)|apply (v_set_into _ _ _ _ _ _ _ _ _ VS)|apply (v_into _ _ _ _ _ _ _ _ _ VS)]. Qed.
  Lemma w_builder_converts : is_builder_into c f = true <-> builder_converts ss x.
  Proof. apply four; [apply (v_build_into _ _ _ _ _ _ _ _ _ VF)|apply (v_into _ _ _ _ _ _ _ _ _ VF)|apply (v_build_into _ _ _ _ _ _ _ _ _ VS)|apply (v_into _ _ _ _ _ _ _ _ _ VS)]. Qed.
  Lemma wants_of cs acc cp cl a b d e g h w m : votes cs acc cp cl a b d e g -> h = option_map (accmode_eqb m) acc -> w = mode_word m -> m <> AMNone ->
    heeds ((exists u, by_getter cs u), by_getter cs w) h.
  Proof. intros V -> E N. apply (wants_told cs acc w m (v_getter _ _ _ _ _ _ _ _ _ V) (v_mode _ _ _ _ _ _ _ _ _ V) E N). Qed.
  Lemma w_copied : is_copy c f = true <-> copied ss x.
  Proof.
    apply four; [apply (wants_of _ _ _ _ _ _ _ _ _ _ "copy" AMCopy VF)|apply (v_copy _ _ _ _ _ _ _ _ _ VF)
      |apply (wants_of _ _ _ _ _ _ _ _ _ _ "copy" AMCopy VS)|apply (v_copy _ _ _ _ _ _ _ _ _ VS)]; try reflexivity; discriminate.
  Qed.
  Lemma w_cloned : is_clone c f = true <-> cloned ss x.
  Proof.
    apply four; [apply (wants_of _ _ _ _ _ _ _ _ _ _ "clone" AMClone VF)|apply (v_clone _ _ _ _ _ _ _ _ _ VF)
      |apply (wants_of _ _ _ _ _ _ _ _ _ _ "clone" AMClone VS)|apply (v_clone _ _ _ _ _ _ _ _ _ VS)]; try reflexivity; discriminate.
  Qed.
  Lemma w_picked w : picked ss x w <-> w = mode_word (accessor_mode c f).
  Proof.
    unfold picked.
    rewrite (told_first _ [option_map mode_word (f_accessor_mode f); option_map mode_word (option_map copy_or_clone (f_is_copy f));
      option_map mode_word (s_accessor_mode (c_args c)); option_map mode_word (option_map copy_or_clone (s_is_copy (c_args c)))]).
    - clear VF VS. unfold accessor_mode.
      destruct (f_accessor_mode f), (f_is_copy f), (s_accessor_mode (c_args c)), (s_is_copy (c_args c)); reflexivity.
    - constructor; [apply (v_getter _ _ _ _ _ _ _ _ _ VF)|]. constructor; [apply (v_word _ _ _ _ _ _ _ _ _ VF)|].
      constructor; [apply (v_getter _ _ _ _ _ _ _ _ _ VS)|]. constructor; [apply (v_word _ _ _ _ _ _ _ _ _ VS)|constructor].
  Qed.
  Section AllFields.
  Variable all : list source.
  Hypothesis HF : Forall2 (read_as ft) all (c_input_fields c).
  Theorem w_facts q : facts_told ss all x q <-> q = facts_of (cfg_of c f) (is_sync c f).
  Proof.
    unfold facts_told.
    rewrite (told_bool _ _ (w_sync ft c ss all HS HF x f R)), (told_bool _ _ (w_async ft c ss HS x f R)), (told_bool _ _ (w_lazy ft c ss HS x f R)),
      (told_bool _ _ (w_optional ft c ss HS x f R)), (told_bool _ _ (w_lock ft c ss HS x f R)), (told_bool _ _ (w_inner_mut ft c ss HS x f R)),
      (told_bool _ _ (w_fallible ft c ss HS x f R)), (told_bool _ _ w_copied), (told_bool _ _ w_cloned), w_picked, (told_bool _ _ w_converts).
    unfold facts_of. simpl. destruct q; simpl. split.
    - intros (-> & -> & -> & -> & -> & -> & -> & -> & -> & -> & ->). reflexivity.
    - intros E. injection E as -> -> -> -> -> -> -> -> -> -> ->. repeat split.
  Qed.
  Theorem w_signature ms m q : field_methods c f = GOk ms -> In m ms -> facts_told ss all x q ->
    (m_async m, m_self m, m_arg m, m_ret m) = signature q (m_kind m).
  Proof.
    intros M I Q. apply w_facts in Q. subst q. change (sig_of m = signature (facts_of (cfg_of c f) (is_sync c f)) (m_kind m)).
    unfold field_methods in M. destruct (is_sync c f); [apply (fits_sync _ _ _ M I)|apply (fits_plain _ _ _ M I)].
  Qed.
  End AllFields.
  Theorem w_builder_setter m : field_builder (cfg_of c f) = Some m -> forall b, told b (builder_converts ss x) ->
    m_kind m = KBuilder /\ m_vis m = "pub" /\ (m_async m, m_self m, m_arg m, m_ret m) = (false, SOwn, Some (if b then TIntoT else TT), TSelf).
  Proof.
    intros M b B. apply (told_bool _ _ w_builder_converts) in B. subst b. unfold field_builder in M.
    destruct (g_forced (cfg_of c f) || g_builder (cfg_of c f)); [|discriminate]. injection M as <-. repeat split.
  Qed.
  End OneField.
End Context.
