(** The emitted methods do what FieldSpec.v says. *)
From Coq Require Import List Bool String Arith.
From Verif Require Import ProxyTypes ArgsModel CtxModel RustAst CommonGen PlainGen SyncGen StructGen
  CodegenSpec CodegenProofs RustSem FieldSpec FieldRun.
Import ListNotations.
Open Scope string_scope.

Definition shows (t : ty) (s : st) (c : cellst) : Prop :=
  rep t (c_val c) = Some (fld s) /\ rd s = c_readers c /\ wr s = c_writer c /\ calls s = c_builds c.
(** Where a handle points to. *)
Definition hpath (t : ty) (raw : bool) : path_in :=
  match t with
  | TT | TOpt _ => []
  | TProxy _ _ => if raw then [] else [IIn]
  | _ => [IIn]
  end.
Definition grip_ok (t : ty) (w : view) (k : hkind) (a : answer) (v : val) : Prop :=
  match a with
  | AnErr _ => grip v = None
  | _ => kept v = match hands_guard w k with
                  | Some h => Some (gd_write h, hpath t (gd_raw h))
                  | None => None
                  end /\
         (mutator k = true -> grip v = Some (hpath t (raw_writer w k)))
  end.
Definition agrees (t : ty) (w : view) (k : hkind) (r : mres) (q : result) : Prop :=
  match r, q with
  | MVal v s, Returns a c => see s v = Some a /\ shows t s c /\ grip_ok t w k a v
  | MPanic s, Panics c => shows t s c
  | MBlock s, Waits c => shows t s c
  | _, _ => False
  end.
Definition no_guards (d : discipline) (c : cellst) : Prop :=
  d = Direct -> c_readers c = 0 /\ c_writer c = false.

Section One.
Variable bld : nat -> outcome nat nat.
Variable dflt : nat.
Variable user : string -> nat.
Variable g : fcfg.
Variable alive : bool.
Hypothesis Halive : g_rc g = true -> alive = true.
Hypothesis Hco : coherent g.
Let run := call bld (g_fallible g) alive dflt user.

Ltac crush :=
  repeat match goal with
  | |- context [bld ?n] => destruct (bld n)
  | |- context [match ?x with true => _ | false => _ end] => is_var x; destruct x
  | |- context [match ?x with O => _ | S _ => _ end] => is_var x; destruct x
  end; cbn; repeat split; try reflexivity; intros; first [reflexivity | discriminate].

Definition plain_claim (k : hkind) (m : mdecl) : Prop :=
  plain_well_typed (settings_g g) k = true ->
  forall n s c, shows (plain_type g) s c -> no_guards (v_disc (plain_view (settings_g g))) c ->
  agrees (plain_type g) (plain_view (settings_g g)) k (run m n s) (spec_call bld dflt (plain_view (settings_g g)) k n c).
Definition sync_claim (k : hkind) (m : mdecl) : Prop :=
  sync_well_typed (settings_g g) k = true -> meant true (settings_g g) k = true ->
  forall t, sync_type g = GOk t -> g_skip g = false ->
  forall n s c, shows t s c -> no_guards (v_disc (sync_view (settings_g g))) c ->
  agrees t (sync_view (settings_g g)) k (run m n s) (spec_call bld dflt (sync_view (settings_g g)) k n c).

Ltac open_state Hs :=
  unfold shows in Hs;
  match goal with s : st, c : cellst |- _ =>
    destruct g, s as [fl r w ca], c as [o r' w' ca'] end;
  cbn in Hs; destruct Hs as (Hrep & Hr & Hw & Hca); subst; subst run;
  destruct Hco as [Hc1 Hc2]; clear Hco; cbn in *.
Ltac start l m H Hin :=
  unfold plain_claim, no_guards in *; intros l m H Hin Hwt n s c Hs Hng; open_state Hs.
Ltac finish_run Hrep H Hin :=
  injection H as <-; destruct Hin as [<-|[]];
  cbn in Hrep; try discriminate Hrep; injection Hrep as <-;
  try match goal with Hng : Direct = Direct -> _ |- _ => destruct (Hng eq_refl) as [-> ->] end;
  try match goal with Ha : true = true -> _ = true |- _ => rewrite (Ha eq_refl) end;
  vm_compute; crush.

Lemma plain_accessor_runs : forall l m, plain_accessor g = GOk l -> In m l -> plain_claim KAccessor m.
Proof.
  start l m H Hin. unfold plain_accessor in H; cbn in H.
  destruct g_get; [|injection H as <-; destruct Hin].
  destruct g_mode; cbn in *; subst g_copy;
  destruct g_clone; try discriminate (Hc2 eq_refl);
  (destruct g_lazy; cbn in *;
   [ rewrite ?andb_false_r in Hwt; try discriminate Hwt;
     destruct g_fallible, g_error_known, g_rc; cbn in H; try discriminate
   | destruct g_optional, g_inner_mut; cbn in H; try discriminate ]);
  destruct o as [o|]; finish_run Hrep H Hin.
Qed.
Lemma plain_accessor_mut_runs : forall l m, plain_accessor_mut g = GOk l -> In m l ->
  plain_claim KAccessorMut m.
Proof.
  start l m H Hin. unfold plain_accessor_mut in H; cbn in H.
  destruct g_get_mut; [|injection H as <-; destruct Hin].
  (destruct g_lazy; cbn in *;
   [ destruct g_fallible, g_error_known, g_rc; cbn in H; try discriminate
   | destruct g_optional, g_inner_mut; cbn in H ]);
  destruct o as [o|]; finish_run Hrep H Hin.
Qed.
Lemma plain_setter_runs : forall l m, plain_setter g = GOk l -> In m l -> plain_claim KSetter m.
Proof.
  start l m H Hin. unfold plain_setter in H; cbn in H.
  destruct g_set; [|injection H as <-; destruct Hin].
  (destruct g_lazy; cbn in *; [| destruct g_optional, g_inner_mut; cbn in H ]);
  destruct o as [o|]; destruct g_set_into; finish_run Hrep H Hin.
Qed.
Lemma plain_clearer_runs : forall l m, plain_clearer g = GOk l -> In m l -> plain_claim KClearer m.
Proof.
  start l m H Hin. unfold plain_clearer in H; cbn in H.
  destruct g_clearer; [|injection H as <-; destruct Hin].
  destruct g_inner_mut, g_lazy, g_optional; cbn in *; try discriminate;
  destruct o as [o|]; finish_run Hrep H Hin.
Qed.
Lemma plain_predicate_runs : forall l m, plain_predicate g = GOk l -> In m l ->
  plain_claim KPredicate m.
Proof.
  start l m H Hin. unfold plain_predicate in H; cbn in H.
  destruct g_predicate; [|injection H as <-; destruct Hin].
  destruct g_lazy, g_optional, g_inner_mut; cbn in *; try (injection H as <-; destruct Hin; fail);
  destruct o as [o|]; finish_run Hrep H Hin.
Qed.

Lemma bounds_tt : bounds g true true.
Proof. split; reflexivity. Qed.
Lemma plain_runs : forall l m, plain_methods g = GOk l -> In m l -> plain_claim (m_kind m) m.
Proof.
  unfold plain_methods. intros l m H Hin.
  destruct (g_skip g); [injection H as <-; destruct Hin|]. bind_in H. injection H as <-. split_in.
  - rewrite (proj2 (plain_accessor_typed g true true Hco bounds_tt _ _ E Hin)).
    exact (plain_accessor_runs _ _ E Hin).
  - rewrite (proj2 (plain_accessor_mut_typed g true true Hco bounds_tt _ _ E0 Hin)).
    exact (plain_accessor_mut_runs _ _ E0 Hin).
  - rewrite (proj2 (plain_setter_typed g true true Hco bounds_tt _ _ E1 Hin)).
    exact (plain_setter_runs _ _ E1 Hin).
  - rewrite (proj2 (plain_clearer_typed g true true Hco bounds_tt _ _ E2 Hin)).
    exact (plain_clearer_runs _ _ E2 Hin).
  - rewrite (proj2 (plain_predicate_typed g true true Hco bounds_tt _ _ E3 Hin)).
    exact (plain_predicate_runs _ _ E3 Hin).
Qed.

Ltac sstart l m H Hin :=
  unfold sync_claim, no_guards in *; intros l m H Hin Hwt Hm t Ht Hsk n s c Hs Hng;
  unfold sync_type, wrapper_type_ok in *; open_state Hs; cbn in Ht; rewrite Hsk in Ht; clear Hsk.
Ltac typ Ht := cbn in Ht; try discriminate Ht; injection Ht as <-; cbn in *.
Ltac sclose o Hrep H Hin :=
  cbn in *; try discriminate;
  destruct o as [o|]; finish_run Hrep H Hin.

Ltac maybe_destruct b := first [is_var b; destruct b | idtac].
Ltac cases Ht fal err lazy rc lock :=
  (destruct fal; [destruct err; cbn in Ht; try discriminate Ht|]);
  typ Ht; (destruct lazy; cbn in *; [maybe_destruct rc|destruct lock]).

Lemma sync_accessor_runs : forall l m, sync_accessor g = GOk l -> In m l -> sync_claim KAccessor m.
Proof.
  sstart l m H Hin. unfold sync_accessor, reader_method in H; cbn in H.
  destruct g_get; [|injection H as <-; destruct Hin].
  clear Hc1 Hc2. destruct g_clone, g_copy;
  cases Ht g_fallible g_error_known g_lazy g_rc g_lock; destruct g_optional, g_async; sclose o Hrep H Hin.
Qed.
Lemma sync_accessor_mut_runs : forall l m, sync_accessor_mut g = GOk l -> In m l ->
  sync_claim KAccessorMut m.
Proof.
  sstart l m H Hin. unfold sync_accessor_mut in H; cbn in H.
  destruct g_get_mut; [|injection H as <-; destruct Hin].
  cases Ht g_fallible g_error_known g_lazy g_rc g_lock; destruct g_optional, g_async; sclose o Hrep H Hin.
Qed.
Lemma sync_reader_runs : forall l m, sync_reader g = GOk l -> In m l -> sync_claim KReader m.
Proof.
  sstart l m H Hin. unfold sync_reader, reader_method in H; cbn in H.
  destruct g_reader; [|injection H as <-; destruct Hin].
  cases Ht g_fallible g_error_known g_lazy g_rc g_lock; destruct g_optional, g_async; sclose o Hrep H Hin.
Qed.
Lemma sync_writer_runs : forall l m, sync_writer g = GOk l -> In m l -> sync_claim KWriter m.
Proof.
  sstart l m H Hin. unfold sync_writer, wrapper_type_ok in H; cbn in H.
  destruct g_writer; [|injection H as <-; destruct Hin].
  cases Ht g_fallible g_error_known g_lazy false g_lock; destruct g_optional, g_async; sclose o Hrep H Hin.
Qed.
Lemma sync_setter_runs : forall l m, sync_setter g = GOk l -> In m l -> sync_claim KSetter m.
Proof.
  sstart l m H Hin. unfold sync_setter in H; cbn in H.
  destruct g_set; [|injection H as <-; destruct Hin].
  cases Ht g_fallible g_error_known g_lazy false g_lock; destruct g_optional, g_async, g_set_into; sclose o Hrep H Hin.
Qed.
Lemma sync_clearer_runs : forall l m, sync_clearer g = GOk l -> In m l -> sync_claim KClearer m.
Proof.
  sstart l m H Hin. unfold sync_clearer in H; cbn in H.
  destruct g_clearer; [|injection H as <-; destruct Hin].
  cases Ht g_fallible g_error_known g_lazy false g_lock; destruct g_optional, g_async; sclose o Hrep H Hin.
Qed.
Lemma sync_predicate_runs : forall l m, sync_predicate g = GOk l -> In m l ->
  sync_claim KPredicate m.
Proof.
  sstart l m H Hin. unfold sync_predicate in H; cbn in H.
  destruct g_predicate; [|injection H as <-; destruct Hin].
  cases Ht g_fallible g_error_known g_lazy false g_lock; destruct g_optional, g_async; sclose o Hrep H Hin.
Qed.
Lemma sync_runs : forall l m, sync_methods g = GOk l -> In m l -> sync_claim (m_kind m) m.
Proof.
  intros l m H Hin Hwt Hm t Ht Hsk. unfold sync_methods in H. rewrite Hsk in H.
  bind_in H. injection H as <-. split_in.
  - pose proof (proj2 (sync_accessor_typed g true true t Hco bounds_tt Ht Hsk _ _ E Hin)) as K.
    rewrite K in *. exact (sync_accessor_runs _ _ E Hin Hwt Hm t Ht Hsk).
  - pose proof (proj2 (sync_accessor_mut_typed g true true t Hco bounds_tt Ht Hsk _ _ E0 Hin)) as K.
    rewrite K in *. exact (sync_accessor_mut_runs _ _ E0 Hin Hwt Hm t Ht Hsk).
  - pose proof (proj2 (sync_reader_typed g true true t Hco bounds_tt Ht Hsk _ _ E1 Hin)) as K.
    rewrite K in *. exact (sync_reader_runs _ _ E1 Hin Hwt Hm t Ht Hsk).
  - pose proof (proj2 (sync_writer_typed g true true t Hco bounds_tt Ht Hsk _ _ E2 Hin)) as K.
    rewrite K in *. exact (sync_writer_runs _ _ E2 Hin Hwt Hm t Ht Hsk).
  - pose proof (proj2 (sync_setter_typed g true true t Hco bounds_tt Ht Hsk _ _ E3 Hin)) as K.
    rewrite K in *. exact (sync_setter_runs _ _ E3 Hin Hwt Hm t Ht Hsk).
  - pose proof (proj2 (sync_clearer_typed g true true t Hco bounds_tt Ht Hsk _ _ E4 Hin)) as K.
    rewrite K in *. exact (sync_clearer_runs _ _ E4 Hin Hwt Hm t Ht Hsk).
  - pose proof (proj2 (sync_predicate_typed g true true t Hco bounds_tt Ht Hsk _ _ E5 Hin)) as K.
    rewrite K in *. exact (sync_predicate_runs _ _ E5 Hin Hwt Hm t Ht Hsk).
Qed.
End One.
