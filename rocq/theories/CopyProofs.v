(** Proofs about the Copy check and the hidden field of a reference counted struct. *)
From Coq Require Import List Bool String.
From Verif Require Import ArgsModel CtxModel RustAst CommonGen PlainGen SyncGen RustTyping
  StructGen CodegenSpec CodegenProofs CodegenValues CodegenStruct CopyModel.
Import ListNotations.
Open Scope string_scope.

(** Without [copy] no method needs the type to be Copy. *)
Lemma no_copy_no_need : forall c f cl t l m, is_copy c f = false ->
  (accessor_mode c f = AMClone -> cl = true) ->
  field_type c f = GOk t -> field_methods c f = GOk l -> In m l ->
  method_ok t (user_builder (is_fallible c f)) true cl m
  = method_ok t (user_builder (is_fallible c f)) false cl m.
Proof.
  intros c f cl t l m K A Ht H I. rewrite mode_copy in K.
  assert (B : forall cp, type_bounds c f cp cl).
  { intros cp. split; [|exact A]. intros E. rewrite E in K. discriminate. }
  destruct (is_sync c f) eqn:Y.
  - rewrite (methods_typed_sync c f true cl t l m Y (B true) Ht H I).
    rewrite (methods_typed_sync c f false cl t l m Y (B false) Ht H I). reflexivity.
  - rewrite (methods_typed_plain c f true cl t l m Y (B true) Ht H I).
    rewrite (methods_typed_plain c f false cl t l m Y (B false) Ht H I). reflexivity.
Qed.

(** Only the getter can need it. *)
Lemma need_is_getter : forall c f cl t l m,
  (accessor_mode c f = AMClone -> cl = true) ->
  field_type c f = GOk t -> field_methods c f = GOk l -> In m l ->
  method_ok t (user_builder (is_fallible c f)) true cl m = true ->
  method_ok t (user_builder (is_fallible c f)) false cl m = false ->
  is_copy c f = true.
Proof.
  intros c f cl t l m A Ht H I T F. destruct (is_copy c f) eqn:K; [reflexivity|].
  pose proof (no_copy_no_need c f cl t l m K A Ht H I). congruence.
Qed.

(** With [copy] the getter does not type-check for a type that is not Copy. *)
Lemma plain_copy_needs : forall g cl l m, coherent g -> g_copy g = true ->
  plain_accessor g = GOk l -> In m l ->
  method_ok (plain_type g) (user_builder (g_fallible g)) false cl m = false.
Proof.
  intros g cl l m [Hc1 Hc2] K H Hin. destruct g; cbn in *. rewrite K in *. clear K.
  unfold plain_accessor in H; cbn in H.
  destruct g_get; [|injection H as <-; destruct Hin].
  destruct g_mode; try discriminate Hc1.
  destruct g_clone; [discriminate (Hc2 eq_refl)|].
  (destruct g_lazy; cbn in *;
   [ destruct g_fallible, g_error_known, g_rc; cbn in H; try discriminate
   | destruct g_optional, g_inner_mut; cbn in H ]);
  injection H as <-; destruct Hin as [<-|[]]; destruct cl; fin.
Qed.
Lemma sync_copy_needs : forall g cl t l m, coherent g -> g_copy g = true -> g_skip g = false ->
  sync_type g = GOk t -> sync_accessor g = GOk l -> In m l ->
  method_ok t (user_builder (g_fallible g)) false cl m = false.
Proof.
  intros g cl t l m [Hc1 Hc2] K Hs Ht H Hin. destruct g; cbn in *. rewrite K, Hs in *. clear K Hs.
  unfold sync_type, wrapper_type_ok in Ht; cbn in Ht.
  unfold sync_accessor, reader_method in H; cbn in H.
  destruct g_get; [|injection H as <-; destruct Hin].
  destruct g_mode; try discriminate Hc1.
  destruct g_clone; [discriminate (Hc2 eq_refl)|].
  destruct g_fallible, g_error_known; cbn in Ht; try discriminate Ht; injection Ht as <-; cbn in *;
  (destruct g_lazy; cbn in *; [destruct g_rc|]);
  destruct g_lock, g_optional, g_async; try destruct cl; cbn in *; try discriminate H;
  injection H as <-; destruct Hin as [<-|[]]; fin.
Qed.

Ltac other E I Hk :=
  repeat match type of E with
  | context [match ?d with _ => _ end] => destruct d; cbn [gbind andb] in E; try discriminate E
  | context [gbind ?d _] => destruct d; cbn [gbind] in E; try discriminate E
  end;
  injection E as <-; cbn [In] in I;
  repeat match goal with Hi : _ \/ _ |- _ => destruct Hi | Hi : False |- _ => destruct Hi end;
  subst; discriminate Hk.
Lemma copy_needs : forall c f cl t l m, f_skip f = false -> is_copy c f = true ->
  field_type c f = GOk t -> field_methods c f = GOk l -> In m l -> m_kind m = KAccessor ->
  method_ok t (user_builder (is_fallible c f)) false cl m = false.
Proof.
  intros c f cl t l m Hs K Ht H I Hk. pose proof (cfg_coherent c f) as Co.
  assert (Hg : g_skip (cfg_of c f) = false) by exact Hs.
  unfold field_type, field_methods in *. destruct (is_sync c f).
  - unfold sync_methods in H. rewrite Hg in H. bind_in H. injection H as <-. split_in.
    + exact (sync_copy_needs (cfg_of c f) cl t _ m Co K Hg Ht E I).
    + unfold sync_accessor_mut in E0. other E0 I Hk.
    + unfold sync_reader, reader_method in E1. other E1 I Hk.
    + unfold sync_writer in E2. other E2 I Hk.
    + unfold sync_setter in E3. other E3 I Hk.
    + unfold sync_clearer in E4. other E4 I Hk.
    + unfold sync_predicate in E5. other E5 I Hk.
  - injection Ht as <-. unfold plain_methods in H. rewrite Hg in H. bind_in H. injection H as <-. split_in.
    + exact (plain_copy_needs (cfg_of c f) cl _ m Co K E I).
    + unfold plain_accessor_mut in E0. other E0 I Hk.
    + unfold plain_setter in E1. other E1 I Hk.
    + unfold plain_clearer in E2. other E2 I Hk.
    + unfold plain_predicate in E3. other E3 I Hk.
Qed.

(** Methods other than the getter do not look at copy and clone. *)
Definition unmode (g : fcfg) : fcfg :=
  mk_fcfg (g_ident g) (g_skip g) (g_lazy g) (g_optional g) (g_inner_mut g) (g_lock g) false false
    AMNone (g_fallible g) (g_error_known g) (g_async g) (g_rc g) (g_get g) (g_get_mut g) (g_set g)
    (g_reader g) (g_writer g) (g_clearer g) (g_predicate g) (g_builder g) (g_forced g)
    (g_required g) (g_set_into g) (g_build_into g) (g_has_default g) (g_default g) (g_serde g)
    (g_ser g) (g_deser g) (g_name g) (g_vis g) (g_attrs g).
Lemma unmode_coherent : forall g, coherent (unmode g).
Proof. intros g. split; [reflexivity|discriminate]. Qed.
Lemma unmode_bounds : forall g cp cl, bounds (unmode g) cp cl.
Proof. intros g cp cl. split; discriminate. Qed.
Lemma other_methods : forall c f cl t l m, f_skip f = false ->
  field_type c f = GOk t -> field_methods c f = GOk l -> In m l ->
  m_kind m <> KAccessor -> forall cp cp',
  method_ok t (user_builder (is_fallible c f)) cp cl m
  = method_ok t (user_builder (is_fallible c f)) cp' cl m.
Proof.
  intros c f cl t l m Hs Ht H I Hk cp cp'. set (g := cfg_of c f).
  pose proof (unmode_coherent g) as Co.
  pose proof (unmode_bounds g cp cl) as B. pose proof (unmode_bounds g cp' cl) as B'.
  assert (Hg : g_skip (unmode g) = false) by exact Hs.
  assert (Hg' : g_skip g = false) by exact Hs.
  unfold field_type, field_methods in *. fold g in Ht, H. destruct (is_sync c f).
  - assert (Ht' : sync_type (unmode g) = GOk t) by exact Ht.
    unfold sync_methods in H. rewrite Hg' in H. bind_in H. injection H as <-. split_in.
    + exfalso. apply Hk. unfold sync_accessor, reader_method in E. decls E I.
    + transitivity (sync_well_typed (settings_g (unmode g)) KAccessorMut); [|symmetry].
      * apply (sync_accessor_mut_typed (unmode g) cp cl t Co B Ht' Hg _ _ E0 I).
      * apply (sync_accessor_mut_typed (unmode g) cp' cl t Co B' Ht' Hg _ _ E0 I).
    + transitivity (sync_well_typed (settings_g (unmode g)) KReader); [|symmetry].
      * apply (sync_reader_typed (unmode g) cp cl t Co B Ht' Hg _ _ E1 I).
      * apply (sync_reader_typed (unmode g) cp' cl t Co B' Ht' Hg _ _ E1 I).
    + transitivity (sync_well_typed (settings_g (unmode g)) KWriter); [|symmetry].
      * apply (sync_writer_typed (unmode g) cp cl t Co B Ht' Hg _ _ E2 I).
      * apply (sync_writer_typed (unmode g) cp' cl t Co B' Ht' Hg _ _ E2 I).
    + transitivity (sync_well_typed (settings_g (unmode g)) KSetter); [|symmetry].
      * apply (sync_setter_typed (unmode g) cp cl t Co B Ht' Hg _ _ E3 I).
      * apply (sync_setter_typed (unmode g) cp' cl t Co B' Ht' Hg _ _ E3 I).
    + transitivity (sync_well_typed (settings_g (unmode g)) KClearer); [|symmetry].
      * apply (sync_clearer_typed (unmode g) cp cl t Co B Ht' Hg _ _ E4 I).
      * apply (sync_clearer_typed (unmode g) cp' cl t Co B' Ht' Hg _ _ E4 I).
    + transitivity (sync_well_typed (settings_g (unmode g)) KPredicate); [|symmetry].
      * apply (sync_predicate_typed (unmode g) cp cl t Co B Ht' Hg _ _ E5 I).
      * apply (sync_predicate_typed (unmode g) cp' cl t Co B' Ht' Hg _ _ E5 I).
  - injection Ht as <-. unfold plain_methods in H. rewrite Hg' in H. bind_in H. injection H as <-. split_in.
    + exfalso. apply Hk. unfold plain_accessor in E. decls E I.
    + transitivity true; [|symmetry].
      * apply (plain_accessor_mut_typed (unmode g) cp cl Co B _ _ E0 I).
      * apply (plain_accessor_mut_typed (unmode g) cp' cl Co B' _ _ E0 I).
    + transitivity true; [|symmetry].
      * apply (plain_setter_typed (unmode g) cp cl Co B _ _ E1 I).
      * apply (plain_setter_typed (unmode g) cp' cl Co B' _ _ E1 I).
    + transitivity (plain_well_typed (settings_g (unmode g)) KClearer); [|symmetry].
      * apply (plain_clearer_typed (unmode g) cp cl Co B _ _ E2 I).
      * apply (plain_clearer_typed (unmode g) cp' cl Co B' _ _ E2 I).
    + transitivity true; [|symmetry].
      * apply (plain_predicate_typed (unmode g) cp cl Co B _ _ E3 I).
      * apply (plain_predicate_typed (unmode g) cp' cl Co B' _ _ E3 I).
Qed.

(** The checked types are those of fields with a getter that needs the check, and of
    skipped fields. *)
Lemma checked_guards : forall c f cl t l m, In f (all_fields c) ->
  (accessor_mode c f = AMClone -> cl = true) ->
  field_type c f = GOk t -> field_methods c f = GOk l -> In m l ->
  method_ok t (user_builder (is_fallible c f)) true cl m = true ->
  method_ok t (user_builder (is_fallible c f)) false cl m = false ->
  In (f_ty f) (copy_checked c) /\ m_kind m = KAccessor.
Proof.
  intros c f cl t l m If A Ht H I T F.
  destruct (f_skip f) eqn:Hs; [rewrite (skip_no_methods c f Hs) in H; injection H as <-; destruct I|].
  pose proof (need_is_getter c f cl t l m A Ht H I T F) as K.
  assert (Hk : m_kind m = KAccessor).
  { destruct (m_kind m) eqn:E; try reflexivity;
      rewrite (other_methods c f cl t l m Hs Ht H I) with (cp' := false) in T; congruence. }
  split; [|exact Hk].
  assert (J : In KAccessor (map m_kind l)) by (rewrite <- Hk; apply in_map; exact I).
  apply (emitted_iff c f l KAccessor Hs H) in J. cbn in J.
  unfold copy_checked. apply in_map. apply filter_In. split; [exact If|]. rewrite K, J. reflexivity.
Qed.
Lemma checked_only : forall c ty, In ty (copy_checked c) ->
  exists f, In f (all_fields c) /\ f_ty f = ty /\ is_copy c f = true /\
    (f_skip f = true \/
     forall t l, field_type c f = GOk t -> field_methods c f = GOk l ->
     exists m, In m l /\ m_kind m = KAccessor /\
       forall cl, method_ok t (user_builder (is_fallible c f)) false cl m = false).
Proof.
  intros c ty H. unfold copy_checked in H. apply in_map_iff in H. destruct H as (f & E & H).
  apply filter_In in H. destruct H as (I & K). apply andb_prop in K. destruct K as (N & K).
  exists f. repeat (split; [assumption|]). destruct (f_skip f) eqn:Hs; [left; reflexivity|right].
  intros t l Ht H. assert (J : In KAccessor (map m_kind l)).
  { apply (emitted_iff c f l KAccessor Hs H). exact N. }
  apply in_map_iff in J. destruct J as (m & Hk & J). exists m. repeat (split; [assumption|]).
  intros cl. exact (copy_needs c f cl t l m Hs K Ht H J Hk).
Qed.

(** ** The hidden weak self reference *)
Definition hidden (c : sctx) (f : field) : Prop :=
  exists n, myself_field c = Some n /\ f = rc_field n (weak_type c).
Lemma hidden_there : forall c, s_is_ref_counted (c_args c) = true ->
  exists f, hidden c f /\ In f (all_fields c) /\ f_ty f = weak_type c ++ "<Self>" /\ f_skip f = true.
Proof.
  intros c H. assert (M : exists n, myself_field c = Some n).
  { unfold myself_field, myself_name. unfold s_is_ref_counted in H.
    destruct (s_rc (c_args c)); [eexists; reflexivity|discriminate]. }
  destruct M as (n & M). exists (rc_field n (weak_type c)). split; [exists n; auto|].
  split; [|split; reflexivity]. unfold all_fields, extra_fields. rewrite H, M. left. reflexivity.
Qed.
(** What the arguments of the struct say about a field that says nothing. *)
Definition struct_says (o : option bool) : bool := unwrap_or o false.
Definition struct_locks (s : sargs) : bool :=
  unwrap_or (s_lock s)
    (struct_says (on_off (s_reader s)) || struct_says (on_off (s_writer s))).
Definition struct_gets (s : sargs) : bool :=
  unwrap_or (on_off (option_map a_base (s_accessor s)))
    (struct_says (on_off (s_clearer s)) || struct_says (on_off (s_predicate s))
     || struct_says (s_inner_mut s)).
Definition struct_copies (s : sargs) : bool :=
  match s_accessor s with
  | Some a => match accessor_arg_mode a with
              | Some m => accmode_eqb AMCopy m
              | None => struct_says (s_is_copy s)
              end
  | None => struct_says (s_is_copy s)
  end.
Lemma hidden_settings : forall c f, hidden c f ->
  is_sync c f = is_rather_sync c /\ is_inner_mut c f = struct_says (s_inner_mut (c_args c)) /\
  needs_lock c f = struct_locks (c_args c) /\
  needs_accessor c f = struct_gets (c_args c) /\ is_copy c f = struct_copies (c_args c).
Proof.
  intros c f (n & _ & ->). unfold struct_says.
  split; [reflexivity|]. split; [reflexivity|]. split; [|split].
  - unfold needs_lock, struct_locks, struct_says, obool_or, s_needs_lock. cbn.
    destruct (s_lock (c_args c)); cbn; [reflexivity|].
    rewrite orb_false_r. reflexivity.
  - unfold needs_accessor, struct_gets, struct_says, obool_or, s_needs_accessor, needs_clearer,
      needs_predicate, is_inner_mut. cbn.
    destruct (s_accessor (c_args c)) as [a|]; cbn; [reflexivity|].
    rewrite orb_false_r. reflexivity.
  - unfold is_copy, struct_copies, s_is_accessor_copy, s_accessor_mode. cbn.
    destruct (s_accessor (c_args c)) as [a|]; [|reflexivity].
    destruct (accessor_arg_mode a); reflexivity.
Qed.
Lemma hidden_iff : forall c f, hidden c f ->
  (forall t, field_type c f = GOk t ->
     (t = TT <-> is_rather_sync c = true \/ struct_says (s_inner_mut (c_args c)) = false)) /\
  (forall us b t, field_type c f = GOk t -> exists e, field_default c f = GOk e /\
     has_type (in_default us b) e t = negb (is_rather_sync c && struct_locks (c_args c))) /\
  (needs_accessor c f && is_copy c f = struct_gets (c_args c) && struct_copies (c_args c)) /\
  ((exists t, field_type c f = GOk t) <->
   is_rather_sync c && is_fallible c f && negb (error_known c f) = false).
Proof.
  intros c f H. destruct (hidden_settings c f H) as (Y & M & L & G & K).
  assert (Hs : f_skip f = true) by (destruct H as (n & _ & ->); reflexivity).
  split; [|split; [|split]].
  - intros t Ht. rewrite <- Y, <- M. exact (skip_type c f t Hs Ht).
  - intros us b t Ht. rewrite <- Y, <- L. exact (skip_default c f us b t Hs Ht).
  - rewrite G, K. reflexivity.
  - rewrite <- Y. unfold field_type. destruct (is_sync c f); cbn [andb].
    + unfold sync_type, wrapper_type_ok. change (g_fallible (cfg_of c f)) with (is_fallible c f).
      change (g_error_known (cfg_of c f)) with (error_known c f).
      destruct (is_fallible c f && negb (error_known c f)); cbn [gbind].
      * split; [intros (t & E); discriminate E|discriminate].
      * split; [reflexivity|]. intros _. eexists. reflexivity.
    + split; [reflexivity|]. intros _. eexists. reflexivity.
Qed.

(** ** Default *)
Lemma impl_exists : forall c, new_emitted c = true ->
  (has_default_impl c = true <->
   c_input_fields c <> [] \/ s_is_ref_counted (c_args c) = true).
Proof.
  intros c H. unfold has_default_impl. unfold new_emitted in H. rewrite H. cbn [andb].
  unfold all_fields, extra_fields. destruct (s_is_ref_counted (c_args c)) eqn:R.
  - destruct (hidden_there c R) as (f & (n & M & _) & _). rewrite M. cbn. tauto.
  - cbn. destruct (c_input_fields c); split; intros K; try discriminate; try reflexivity.
    + destruct K as [K|K]; [contradiction|discriminate].
    + left. discriminate.
Qed.
