(** Proofs about the emitted values: defaults, build(), serde conversions. *)
From Coq Require Import List Bool String.
From Verif Require Import ArgsModel CtxModel RustAst CommonGen PlainGen SyncGen RustTyping
  StructGen CodegenSpec CodegenProofs.
Import ListNotations.
Open Scope string_scope.

(** ** Values *)
Definition in_default (us : bool) (b : ty) : env := value_env true us [] b.
Definition in_build (us : bool) (b : ty) : env :=
  value_env false us [("self", (TOpt TT, KBor true))] b.
Definition in_from_shadow (us : bool) (g : fcfg) (b : ty) : env :=
  value_env true us [("__shadow", (shadow_type g, KOwn false))] b.
Definition in_into_shadow (us : bool) (t b : ty) : env :=
  value_env true us [("__me", (t, KOwn true))] b.

Ltac val_fin :=
  eexists; split; [reflexivity|];
  try match goal with us : bool |- context [in_build ?u _] => destruct u end;
  vm_compute; reflexivity.

Lemma plain_default_typed : forall g us b, exists e,
  plain_default_wrap g = GOk e /\ has_type (in_default us b) e (plain_type g) = true.
Proof.
  intros g us b. destruct g. unfold plain_default_wrap, plain_value_wrap, field_default_value,
    plain_type, default_expr; cbn.
  destruct g_default as [[s []]|]; destruct g_lazy, g_optional, g_inner_mut; cbn; val_fin.
Qed.
Lemma plain_builder_typed : forall g us b, exists e,
  plain_builder_value g = GOk e /\ has_type (in_build us b) e (plain_type g) = true.
Proof.
  intros g us b. destruct g. unfold plain_builder_value, value_for_set, plain_default_wrap,
    plain_value_wrap, field_default_value, plain_type, default_expr; cbn.
  destruct g_default as [[s []]|], g_lazy, g_optional, g_inner_mut; cbn;
  destruct g_forced, g_builder; cbn; try val_fin;
  destruct g_has_default, g_required; cbn; val_fin.
Qed.
Lemma plain_from_shadow_typed : forall g us b, exists e,
  plain_from_shadow g = GOk e /\ has_type (in_from_shadow us g b) e (plain_type g) = true.
Proof.
  intros g us b. destruct g. unfold plain_from_shadow, plain_default_wrap, plain_value_wrap,
    field_default_value, plain_type, default_expr, in_from_shadow, shadow_type, serde_optional; cbn.
  destruct g_default as [[s []]|], g_lazy, g_optional, g_inner_mut; cbn; val_fin.
Qed.
Lemma plain_from_struct_typed : forall g us b,
  has_type (in_into_shadow us (plain_type g) b) (plain_from_struct g) (shadow_type g) = true.
Proof.
  intros g us b. destruct g. unfold plain_from_struct, plain_type, shadow_type, serde_optional; cbn.
  destruct g_lazy, g_optional, g_inner_mut; reflexivity.
Qed.

Lemma sync_default_typed : forall g us b t, sync_type g = GOk t -> g_skip g = false -> exists e,
  sync_default_wrap g = GOk e /\ has_type (in_default us b) e t = true.
Proof.
  intros g us b t Ht Hs. destruct g. unfold sync_type, sync_default_wrap, sync_value_wrap,
    field_default_value, default_expr, wrap_builder, sync_type, wrapper_type_ok in *; cbn in *.
  rewrite Hs in *.
  destruct g_fallible, g_error_known; cbn in *; try discriminate; injection Ht as <-;
  destruct g_default as [[s []]|], g_lazy, g_optional, g_lock, g_async; cbn; val_fin.
Qed.
Lemma sync_from_shadow_typed : forall g us b t, sync_type g = GOk t -> g_skip g = false -> exists e,
  sync_from_shadow g = GOk e /\ has_type (in_from_shadow us g b) e t = true.
Proof.
  intros g us b t Ht Hs. destruct g. unfold sync_from_shadow, sync_value_wrap,
    wrap_builder, sync_type, wrapper_type_ok, in_from_shadow, shadow_type, serde_optional in *; cbn in *.
  rewrite Hs in *.
  destruct g_fallible, g_error_known; cbn in *; try discriminate; injection Ht as <-;
  destruct g_lazy, g_optional, g_lock, g_async; cbn; val_fin.
Qed.
Lemma sync_from_struct_typed : forall g us b t, sync_type g = GOk t -> g_skip g = false ->
  has_type (in_into_shadow us t b) (sync_from_struct g) (shadow_type g)
  = g_lazy g || g_lock g || negb (g_optional g).
Proof.
  intros g us b t Ht Hs. destruct g. unfold sync_from_struct, shadow_type, serde_optional,
    sync_type, wrapper_type_ok in *; cbn in *. rewrite Hs in *.
  destruct g_fallible, g_error_known; cbn in *; try discriminate; injection Ht as <-;
  destruct g_lazy, g_optional, g_lock, g_async; reflexivity.
Qed.

(** build() of sync fields. *)
Definition g_bare_default (g : fcfg) : bool :=
  g_has_default g && match g_default g with Some _ => false | None => true end.
Lemma sync_builder_panics : forall g t, sync_type g = GOk t ->
  g_bare_default g && (g_lazy g || g_optional g) = true ->
  sync_builder_value g = GPanic "Internal problem: expected default value for field".
Proof.
  intros g t Ht H. unfold sync_builder_value. rewrite Ht. cbn.
  destruct g; unfold g_bare_default, field_default_value in *; cbn in *.
  destruct g_has_default, g_default; try discriminate. cbn in H. rewrite H. reflexivity.
Qed.
Lemma sync_builder_typed : forall g us b t, sync_type g = GOk t -> g_skip g = false ->
  (g_default g <> None -> g_has_default g = true) ->
  g_bare_default g && (g_lazy g || g_optional g) = false -> exists e,
  sync_builder_value g = GOk e /\
  has_type (in_build us b) e t =
    negb (us && match g_default g with Some _ => true | None => false end)
    || ((g_builder g || g_forced g) && (g_lazy g || (g_optional g && negb (g_lock g)))).
Proof.
  intros g us b t Ht Hs Hd H.
  unfold sync_builder_value. rewrite Ht. unfold gbind at 1.
  unfold sync_type, wrapper_type_ok in Ht. rewrite Hs in Ht.
  assert (Hw : wrapper_type_ok g = GOk tt).
  { unfold wrapper_type_ok. destruct (g_fallible g && negb (g_error_known g)); [discriminate|reflexivity]. }
  unfold wrapper_type_ok in Hw. rewrite Hw in Ht. cbn [gbind] in Ht. injection Ht as <-.
  unfold value_for_set, sync_default_wrap, sync_value_wrap, wrap_builder, wrapper_type_ok,
    sync_type, wrapper_type_ok. rewrite Hs, Hw. cbn [gbind].
  unfold maybe_locked, maybe_optional.
  generalize (g_async g) (g_fallible g). intros asy fal.
  clear Hw Hs. revert Hd H. unfold g_bare_default, field_default_value.
  generalize (g_lazy g) (g_optional g) (g_lock g) (g_builder g) (g_forced g) (g_required g)
    (g_has_default g) (g_default g).
  clear g. intros la op lo bu fo re hd d Hd H.
  assert (Hd' : match d with Some _ => hd | None => true end = true).
  { destruct d; [apply Hd; discriminate|reflexivity]. }
  clear Hd. unfold default_expr, repr_expect.
  destruct la, op; (destruct d as [[s []]|]; [subst hd|subst hd|destruct hd; try discriminate H]);
    clear; destruct lo, asy, bu, fo;
    try destruct fal; try destruct re; val_fin.
Qed.

(** Skipped sync fields keep the declared type but not always the value. *)
Lemma sync_skipped_type : forall g t, sync_type g = GOk t -> g_skip g = true -> t = TT.
Proof.
  intros g t H Hs. unfold sync_type in H. destruct (wrapper_type_ok g); try discriminate.
  cbn in H. rewrite Hs in H. congruence.
Qed.
Lemma sync_skipped_default : forall g us b t, sync_type g = GOk t -> g_skip g = true ->
  g_optional g = false -> exists e, sync_default_wrap g = GOk e /\
  has_type (in_default us b) e TT = negb (g_lazy g || g_lock g).
Proof.
  intros g us b t Ht Hs Ho. destruct g. unfold sync_type, sync_default_wrap, sync_value_wrap,
    field_default_value, default_expr, wrap_builder, sync_type, wrapper_type_ok in *; cbn in *.
  rewrite Hs, Ho in *.
  destruct g_fallible, g_error_known; cbn in *; try discriminate; injection Ht as <-;
  destruct g_default as [[s []]|], g_lazy, g_lock, g_async; cbn; val_fin.
Qed.

(** The setter of the builder. *)
Lemma field_builder_typed : forall g m b cp cl, field_builder g = Some m ->
  method_ok (TOpt TT) b cp cl m = true /\ m_kind m = KBuilder.
Proof.
  intros g m b cp cl H. unfold field_builder in H.
  destruct (g_forced g || g_builder g); [|discriminate]. injection H as <-.
  split; [|reflexivity]. destruct (g_build_into g); destruct cp, cl; reflexivity.
Qed.
