(** Proofs about the emitted code: typing, skip, off. *)
From Coq Require Import List Bool String.
From Verif Require Import ArgsModel CtxModel RustAst CommonGen PlainGen SyncGen RustTyping
  StructGen CodegenSpec.
Import ListNotations.
Open Scope string_scope.

(** ** Accessor mode against clone and copy *)
Lemma mode_copy : forall c f, is_copy c f = accmode_eqb (accessor_mode c f) AMCopy.
Proof.
  intros c f. unfold accessor_mode, is_copy, f_is_accessor_copy, s_is_accessor_copy.
  destruct (f_accessor_mode f) as [[]|]; cbn; try reflexivity.
  destruct (f_is_copy f) as [[]|]; cbn; try reflexivity.
  destruct (s_accessor_mode (c_args c)) as [[]|]; cbn; try reflexivity.
  destruct (s_is_copy (c_args c)) as [[]|]; reflexivity.
Qed.
Lemma mode_clone : forall c f, is_clone c f = true -> accessor_mode c f = AMClone.
Proof.
  intros c f. unfold accessor_mode, is_clone, f_is_accessor_clone, s_is_accessor_clone,
    f_is_copy, f_is_clone, s_is_copy, s_is_clone.
  destruct (f_accessor_mode f) as [[]|]; cbn; try discriminate; try reflexivity.
  destruct (f_clone f) as [[]|], (f_copy f) as [[]|]; cbn; try discriminate; try reflexivity;
  destruct (s_accessor_mode (c_args c)) as [[]|]; cbn; try discriminate; try reflexivity;
  destruct (s_clone (c_args c)) as [[]|], (s_copy (c_args c)) as [[]|]; cbn;
    try discriminate; reflexivity.
Qed.

(** The facts about a configuration that typing relies on. *)
Record coherent (g : fcfg) : Prop := {
  co_copy : g_copy g = accmode_eqb (g_mode g) AMCopy;
  co_clone : g_clone g = true -> g_mode g = AMClone
}.
Lemma cfg_coherent : forall c f, coherent (cfg_of c f).
Proof.
  intros. split; cbn; [apply mode_copy | apply mode_clone].
Qed.

Definition settings_g (g : fcfg) : settings :=
  mk_settings (g_lazy g) (g_optional g) (g_inner_mut g) (g_lock g) (g_clone g) (g_copy g)
    (g_mode g) (g_fallible g) (g_async g).
(** The declared type is Copy when the user asked to copy it, Clone when asked to clone. *)
Definition bounds (g : fcfg) (copy clone : bool) : Prop :=
  (g_mode g = AMCopy -> copy = true) /\ (g_mode g = AMClone -> clone = true).

Ltac split_in :=
  repeat match goal with
  | H : In _ [] |- _ => destruct H
  | H : In _ (_ :: _) |- _ => destruct H as [H|H]
  | H : In _ (_ ++ _)%list |- _ => apply in_app_or in H; destruct H as [H|H]
  | H : GOk _ = GOk _ |- _ => injection H as H
  | H : GErr _ = GOk _ |- _ => discriminate H
  | H : GPanic _ = GOk _ |- _ => discriminate H
  end.
Ltac bind_in H :=
  repeat match type of H with
  | gbind ?r _ = GOk _ => let E := fresh "E" in destruct r eqn:E; cbn [gbind] in H; try discriminate H
  end.

Ltac fin :=
  vm_compute;
  repeat match goal with |- context [if ?b then _ else _] => is_var b; destruct b end;
  reflexivity.

Section Plain.
Variable g : fcfg.
Variables cp cl : bool.
Hypothesis Hco : coherent g.
Hypothesis Hb : bounds g cp cl.
Let ok := method_ok (plain_type g) (user_builder (g_fallible g)) cp cl.

Ltac go :=
  destruct g; destruct Hco as [Hc1 Hc2]; destruct Hb as [Hb1 Hb2]; cbn in *; clear Hco Hb; subst ok;
  intros l m H Hin.

Lemma plain_accessor_typed : forall l m, plain_accessor g = GOk l -> In m l ->
  ok m = plain_well_typed (settings_g g) KAccessor /\ m_kind m = KAccessor.
Proof.
  go. unfold plain_accessor in H; cbn in H.
  destruct g_get; [|injection H as <-; destruct Hin].
  destruct g_mode; cbn in *; subst g_copy;
  try (specialize (Hb1 eq_refl); subst cp); try (specialize (Hb2 eq_refl); subst cl);
  destruct g_clone; try discriminate (Hc2 eq_refl);
  (destruct g_lazy; cbn in *;
   [ destruct g_fallible, g_error_known, g_rc; cbn in H; try discriminate
   | destruct g_optional, g_inner_mut; cbn in H ]);
  injection H as <-; destruct Hin as [<-|[]]; split; try reflexivity; destruct cp, cl;
  fin.
Qed.
Lemma plain_accessor_mut_typed : forall l m, plain_accessor_mut g = GOk l -> In m l ->
  ok m = true /\ m_kind m = KAccessorMut.
Proof.
  go. unfold plain_accessor_mut in H; cbn in H.
  destruct g_get_mut; [|injection H as <-; destruct Hin].
  (destruct g_lazy; cbn in *;
   [ destruct g_fallible, g_error_known, g_rc; cbn in H; try discriminate
   | destruct g_optional, g_inner_mut; cbn in H ]);
  injection H as <-; destruct Hin as [<-|[]]; split; try reflexivity; fin.
Qed.
Lemma plain_setter_typed : forall l m, plain_setter g = GOk l -> In m l ->
  ok m = true /\ m_kind m = KSetter.
Proof.
  go. unfold plain_setter in H; cbn in H.
  destruct g_set; [|injection H as <-; destruct Hin].
  (destruct g_lazy; cbn in *; [| destruct g_optional, g_inner_mut; cbn in H ]);
  injection H as <-; destruct Hin as [<-|[]]; split; try reflexivity; destruct g_set_into; fin.
Qed.
Lemma plain_clearer_typed : forall l m, plain_clearer g = GOk l -> In m l ->
  ok m = plain_well_typed (settings_g g) KClearer /\ m_kind m = KClearer.
Proof.
  go. unfold plain_clearer in H; cbn in H.
  destruct g_clearer; [|injection H as <-; destruct Hin].
  destruct g_inner_mut, g_lazy, g_optional; cbn in H;
  injection H as <-; destruct Hin as [<-|[]]; split; try reflexivity; fin.
Qed.
Lemma plain_predicate_typed : forall l m, plain_predicate g = GOk l -> In m l ->
  ok m = true /\ m_kind m = KPredicate.
Proof.
  go. unfold plain_predicate in H; cbn in H.
  destruct g_predicate, g_lazy, g_optional; cbn in H; injection H as <-;
    try destruct Hin as [<-|[]]; try destruct Hin; split; try reflexivity;
    destruct g_inner_mut; fin.
Qed.

Lemma plain_methods_typed : forall l m, plain_methods g = GOk l -> In m l ->
  ok m = plain_well_typed (settings_g g) (m_kind m).
Proof.
  intros l m H Hin. unfold plain_methods in H.
  destruct (g_skip g); [injection H as <-; destruct Hin|].
  bind_in H. injection H as <-. split_in.
  - destruct (plain_accessor_typed _ _ E Hin) as [-> ->]. reflexivity.
  - destruct (plain_accessor_mut_typed _ _ E0 Hin) as [-> ->]. reflexivity.
  - destruct (plain_setter_typed _ _ E1 Hin) as [-> ->]. reflexivity.
  - destruct (plain_clearer_typed _ _ E2 Hin) as [-> ->]. reflexivity.
  - destruct (plain_predicate_typed _ _ E3 Hin) as [-> ->]. reflexivity.
Qed.
End Plain.

Section Sync.
Variable g : fcfg.
Variables cp cl : bool.
Variable t : ty.
Hypothesis Hco : coherent g.
Hypothesis Hb : bounds g cp cl.
Hypothesis Ht : sync_type g = GOk t.
Hypothesis Hskip : g_skip g = false.
Let ok := method_ok t (user_builder (g_fallible g)) cp cl.
Let spec := sync_well_typed (settings_g g).

Ltac go :=
  destruct g; destruct Hco as [Hc1 Hc2]; destruct Hb as [Hb1 Hb2];
  unfold sync_type, wrapper_type_ok in *; cbn in *; clear Hco Hb; subst ok spec; rewrite Hskip in Ht; clear Hskip;
  intros l m H Hin.
Ltac typ := cbn in Ht; try discriminate Ht; injection Ht as <-; cbn in *.
Ltac close H Hin :=
  cbn in *; try discriminate H; injection H as <-; destruct Hin as [<-|[]]; split; try reflexivity; fin.

Lemma sync_accessor_typed : forall l m, sync_accessor g = GOk l -> In m l ->
  ok m = spec KAccessor /\ m_kind m = KAccessor.
Proof.
  go. unfold sync_accessor, reader_method in H; cbn in H.
  destruct g_get; [|injection H as <-; destruct Hin].
  destruct g_mode; cbn in *; subst g_copy;
  try (specialize (Hb1 eq_refl); subst cp); try (specialize (Hb2 eq_refl); subst cl);
  destruct g_clone; try discriminate (Hc2 eq_refl); try clear Hc2; try clear Hb1; try clear Hb2;
  destruct g_fallible, g_error_known; typ;
  (destruct g_lazy; cbn in *; [destruct g_rc|]);
  destruct g_lock, g_optional, g_async; try destruct cp; try destruct cl; close H Hin.
Qed.
Lemma sync_accessor_mut_typed : forall l m, sync_accessor_mut g = GOk l -> In m l ->
  ok m = spec KAccessorMut /\ m_kind m = KAccessorMut.
Proof.
  go. unfold sync_accessor_mut in H; cbn in H.
  destruct g_get_mut; [|injection H as <-; destruct Hin]. clear Hc1 Hc2 Hb1 Hb2.
  destruct g_fallible, g_error_known; typ;
  (destruct g_lazy; cbn in *; [destruct g_rc|]);
  destruct g_lock, g_optional, g_async; close H Hin.
Qed.
Lemma sync_reader_typed : forall l m, sync_reader g = GOk l -> In m l ->
  ok m = spec KReader /\ m_kind m = KReader.
Proof.
  go. unfold sync_reader, reader_method in H; cbn in H.
  destruct g_reader; [|injection H as <-; destruct Hin]. clear Hc1 Hc2 Hb1 Hb2.
  destruct g_fallible, g_error_known; typ;
  (destruct g_lazy; cbn in *; [destruct g_rc|]);
  destruct g_lock, g_optional, g_async; close H Hin.
Qed.
Lemma sync_writer_typed : forall l m, sync_writer g = GOk l -> In m l ->
  ok m = spec KWriter /\ m_kind m = KWriter.
Proof.
  go. unfold sync_writer, wrapper_type_ok in H; cbn in H.
  destruct g_writer; [|injection H as <-; destruct Hin]. clear Hc1 Hc2 Hb1 Hb2.
  destruct g_fallible, g_error_known; typ;
  destruct g_lazy; cbn in *;
  destruct g_lock, g_optional, g_async; close H Hin.
Qed.
Lemma sync_setter_typed : forall l m, sync_setter g = GOk l -> In m l ->
  ok m = spec KSetter /\ m_kind m = KSetter.
Proof.
  go. unfold sync_setter in H; cbn in H.
  destruct g_set; [|injection H as <-; destruct Hin]. clear Hc1 Hc2 Hb1 Hb2.
  destruct g_fallible, g_error_known; typ;
  destruct g_lazy; cbn in *;
  destruct g_lock, g_optional, g_async, g_set_into; close H Hin.
Qed.
Lemma sync_clearer_typed : forall l m, sync_clearer g = GOk l -> In m l ->
  ok m = spec KClearer /\ m_kind m = KClearer.
Proof.
  go. unfold sync_clearer in H; cbn in H.
  destruct g_clearer; [|injection H as <-; destruct Hin]. clear Hc1 Hc2 Hb1 Hb2.
  destruct g_fallible, g_error_known; typ;
  destruct g_lazy; cbn in *;
  destruct g_lock, g_optional, g_async; close H Hin.
Qed.
Lemma sync_predicate_typed : forall l m, sync_predicate g = GOk l -> In m l ->
  ok m = spec KPredicate /\ m_kind m = KPredicate.
Proof.
  go. unfold sync_predicate in H; cbn in H.
  destruct g_predicate; [|injection H as <-; destruct Hin]. clear Hc1 Hc2 Hb1 Hb2.
  destruct g_fallible, g_error_known; typ;
  destruct g_lazy; cbn in *;
  destruct g_lock, g_optional, g_async; close H Hin.
Qed.

Lemma sync_methods_typed : forall l m, sync_methods g = GOk l -> In m l -> ok m = spec (m_kind m).
Proof.
  intros l m H Hin. unfold sync_methods in H. rewrite Hskip in H.
  bind_in H. injection H as <-. split_in.
  - destruct (sync_accessor_typed _ _ E Hin) as [-> ->]. reflexivity.
  - destruct (sync_accessor_mut_typed _ _ E0 Hin) as [-> ->]. reflexivity.
  - destruct (sync_reader_typed _ _ E1 Hin) as [-> ->]. reflexivity.
  - destruct (sync_writer_typed _ _ E2 Hin) as [-> ->]. reflexivity.
  - destruct (sync_setter_typed _ _ E3 Hin) as [-> ->]. reflexivity.
  - destruct (sync_clearer_typed _ _ E4 Hin) as [-> ->]. reflexivity.
  - destruct (sync_predicate_typed _ _ E5 Hin) as [-> ->]. reflexivity.
Qed.
End Sync.
