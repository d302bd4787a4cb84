(** Lemmas about argument resolution. *)
From Coq Require Import List Bool String Arith Lia Ascii.
From Verif Require Import ArgsModel CtxModel ArgsSpec.
Import ListNotations.
Open Scope string_scope.

(** The model's answer for each feature. *)
Definition effective (c : sctx) (f : field) (ft : feature) : bool :=
  match ft with
  | FtLazy => is_lazy c f
  | FtGet => needs_accessor c f
  | FtGetMut => needs_accessor_mut c f
  | FtSet => needs_setter c f
  | FtReader => needs_reader c f
  | FtWriter => needs_writer c f
  | FtClearer => needs_clearer c f
  | FtPredicate => needs_predicate c f
  | FtOptional => is_optional c f
  | FtLock => needs_lock c f
  | FtInnerMut => is_inner_mut c f
  | FtBuilder => needs_builder c f
  | FtBuilderInto => is_builder_into c f
  | FtSetterInto => is_setter_into c f
  | FtRequired => is_builder_required c f
  | FtCopy => is_copy c f
  | FtClone => is_clone c f
  | FtFallible => is_fallible c f
  end.

Lemma said_on_off : forall h, said h = on_off h.
Proof. intros [h|]; reflexivity. Qed.

Ltac unsaid :=
  repeat match goal with |- context [said ?h] => rewrite (said_on_off h) end.

Lemma get_says_copy_f : forall f, get_says AMCopy (f_accessor f) = f_is_accessor_copy f.
Proof.
  intro f. unfold get_says, f_is_accessor_copy, f_accessor_mode, accessor_arg_mode.
  destruct (f_accessor f) as [x|]; auto. destruct (a_clone x), (a_copy x), (a_as_ref x); auto.
Qed.
Lemma get_says_clone_f : forall f, get_says AMClone (f_accessor f) = f_is_accessor_clone f.
Proof.
  intro f. unfold get_says, f_is_accessor_clone, f_accessor_mode, accessor_arg_mode.
  destruct (f_accessor f) as [x|]; auto. destruct (a_clone x), (a_copy x), (a_as_ref x); auto.
Qed.
Lemma get_says_copy_s : forall f, get_says AMCopy (s_accessor f) = s_is_accessor_copy f.
Proof.
  intro f. unfold get_says, s_is_accessor_copy, s_accessor_mode, accessor_arg_mode.
  destruct (s_accessor f) as [x|]; auto. destruct (a_clone x), (a_copy x), (a_as_ref x); auto.
Qed.
Lemma get_says_clone_s : forall f, get_says AMClone (s_accessor f) = s_is_accessor_clone f.
Proof.
  intro f. unfold get_says, s_is_accessor_clone, s_accessor_mode, accessor_arg_mode.
  destruct (s_accessor f) as [x|]; auto. destruct (a_clone x), (a_copy x), (a_as_ref x); auto.
Qed.
Lemma pair_says_if : forall m o, pair_says m o = if unwrap_or o false then Some false else m.
Proof. intros m [[|]|]; reflexivity. Qed.

Lemma resolve_eq : forall (c : sctx) f ft, f_skip f = false ->
  effective c f ft =
  match field_says f ft with
  | Some b => b
  | None => match struct_says (c_args c) ft with
            | Some b => b
            | None => implied (effective c f) ft
            end
  end.
Proof.
  intros c f ft Hs.
  destruct ft; unfold effective, field_says, struct_says, implied;
    unsaid; rewrite ?get_says_copy_f, ?get_says_clone_f, ?get_says_copy_s,
      ?get_says_clone_s, ?pair_says_if.
  - unfold is_lazy, f_is_lazy, unless_skip, s_is_lazy. rewrite Hs.
    destruct (on_off (f_lazy f)), (on_off (s_lazy (c_args c))); reflexivity.
  - unfold needs_accessor, f_needs_accessor, s_needs_accessor, acc_base.
    destruct (on_off (option_map a_base (f_accessor f))); auto.
  - unfold needs_accessor_mut, f_needs_accessor_mut, s_needs_accessor_mut.
    destruct (on_off (f_accessor_mut f)), (on_off (s_accessor_mut (c_args c))); auto.
  - unfold needs_setter, f_needs_setter, s_needs_setter, set_base.
    destruct (on_off (option_map st_base (f_setter f))),
      (on_off (option_map st_base (s_setter (c_args c)))); auto.
  - unfold needs_reader, f_needs_reader, s_needs_reader.
    destruct (on_off (f_reader f)), (on_off (s_reader (c_args c))); auto.
  - unfold needs_writer, f_needs_writer, s_needs_writer.
    destruct (on_off (f_writer f)), (on_off (s_writer (c_args c))); auto.
  - unfold needs_clearer, f_needs_clearer, s_needs_clearer.
    destruct (on_off (f_clearer f)), (on_off (s_clearer (c_args c))); auto.
  - unfold needs_predicate, f_needs_predicate, s_needs_predicate.
    destruct (on_off (f_predicate f)), (on_off (s_predicate (c_args c))); auto.
  - unfold is_optional, f_is_optional, s_is_optional, f_is_skipped. rewrite Hs.
    destruct (f_optional f), (s_optional (c_args c)); reflexivity.
  - unfold needs_lock, f_needs_lock, s_needs_lock.
    destruct (f_lock f), (s_lock (c_args c)); reflexivity.
  - unfold is_inner_mut, f_is_inner_mut, s_is_inner_mut.
    destruct (f_inner_mut f), (s_inner_mut (c_args c)); reflexivity.
  - unfold needs_builder, f_needs_builder, s_needs_builder, bld_base, is_builder_opt_in.
    destruct (on_off (option_map b_base (f_builder f))); auto.
    destruct (s_builder (c_args c)) as [b|]; auto. simpl. unfold helper_is_true, on.
    destruct (h_off (b_base b)); auto. destruct (b_opt_in b) as [[|]|]; auto.
  - unfold is_builder_into, f_is_builder_into, f_is_into, s_is_builder_into, s_is_into.
    destruct (f_builder f) as [[? ? ? [?|] ? ? ? ?]|], (f_into f),
      (s_builder (c_args c)) as [[? ? ? [?|] ? ? ? ?]|], (s_into (c_args c)); reflexivity.
  - unfold is_setter_into, f_is_setter_into, f_is_into, s_is_setter_into, s_is_into.
    destruct (f_setter f) as [[? [?|]]|], (f_into f),
      (s_setter (c_args c)) as [[? [?|]]|], (s_into (c_args c)); reflexivity.
  - unfold is_builder_required, s_is_builder_required.
    destruct (f_builder f) as [[? ? ? ? [?|] ? ? ?]|],
      (s_builder (c_args c)) as [[? ? ? ? [?|] ? ? ?]|]; reflexivity.
  - unfold is_copy, f_is_copy, s_is_copy. simpl.
    destruct (f_is_accessor_copy f); auto.
    destruct (unwrap_or (f_clone f) false); auto. simpl.
    destruct (f_copy f); auto. simpl.
    destruct (s_is_accessor_copy (c_args c)); auto. simpl.
    destruct (unwrap_or (s_clone (c_args c)) false); auto. destruct (s_copy (c_args c)); auto.
  - unfold is_clone, f_is_clone, s_is_clone. simpl.
    destruct (f_is_accessor_clone f); auto.
    destruct (unwrap_or (f_copy f) false); auto. simpl.
    destruct (f_clone f); auto. simpl.
    destruct (s_is_accessor_clone (c_args c)); auto. simpl.
    destruct (unwrap_or (s_copy (c_args c)) false); auto. destruct (s_clone (c_args c)); auto.
  - unfold is_fallible, f_is_fallible, s_is_fallible, fallible_is_true.
    destruct (f_fallible f) as [[[|] ?]|], (s_fallible (c_args c)) as [[[|] ?]|]; reflexivity.
Qed.

Lemma precedence_holds : forall c f, f_skip f = false ->
  precedence (c_args c) f (effective c f).
Proof.
  intros c f Hs ft. pose proof (resolve_eq c f ft Hs) as E. repeat split.
  - intros b H. rewrite E, H. reflexivity.
  - intros b H1 H2. rewrite E, H1, H2. reflexivity.
  - intros H1 H2. rewrite E, H1, H2. reflexivity.
Qed.

(** [precedence] pins the effective values down completely. *)
Lemma precedence_unique : forall s f e1 e2,
  precedence s f e1 -> precedence s f e2 -> forall ft, e1 ft = e2 ft.
Proof.
  intros s f e1 e2 H1 H2.
  assert (Hstep : forall ft, implied e1 ft = implied e2 ft -> e1 ft = e2 ft).
  { intros ft Hi. destruct (H1 ft) as (A1 & B1 & C1), (H2 ft) as (A2 & B2 & C2).
    destruct (field_says f ft) as [b|] eqn:Ef.
    - rewrite (A1 b), (A2 b); auto.
    - destruct (struct_says s ft) as [b|] eqn:Es.
      + rewrite (B1 b), (B2 b); auto.
      + rewrite C1, C2; auto. }
  assert (Hl : e1 FtLazy = e2 FtLazy) by (apply Hstep; reflexivity).
  assert (Hc : e1 FtClearer = e2 FtClearer) by (apply Hstep; reflexivity).
  assert (Hp : e1 FtPredicate = e2 FtPredicate) by (apply Hstep; reflexivity).
  assert (Hi : e1 FtInnerMut = e2 FtInnerMut) by (apply Hstep; reflexivity).
  assert (Hr : e1 FtReader = e2 FtReader) by (apply Hstep; reflexivity).
  assert (Hw : e1 FtWriter = e2 FtWriter) by (apply Hstep; reflexivity).
  assert (Ho : e1 FtOptional = e2 FtOptional)
    by (apply Hstep; simpl; rewrite Hl, Hc, Hp; reflexivity).
  destruct ft; try assumption; try (apply Hstep; reflexivity);
    apply Hstep; simpl; rewrite ?Hl, ?Hc, ?Hp, ?Hi, ?Hr, ?Hw, ?Ho; reflexivity.
Qed.

(** ** copy and clone *)
Lemma never_both : forall c f, is_copy c f && is_clone c f = false.
Proof.
  intros c f. unfold is_copy, is_clone.
  unfold f_is_accessor_copy, f_is_accessor_clone, s_is_accessor_copy, s_is_accessor_clone,
    f_is_copy, f_is_clone, s_is_copy, s_is_clone.
  destruct (f_accessor_mode f) as [[| | |]|]; simpl; auto;
  destruct (f_copy f) as [[|]|], (f_clone f) as [[|]|]; simpl; auto;
  destruct (s_accessor_mode (c_args c)) as [[| | |]|]; simpl; auto;
  destruct (s_copy (c_args c)) as [[|]|], (s_clone (c_args c)) as [[|]|]; simpl; auto.
Qed.

(** ** Exclusives *)
Definition clashb (en : argname -> bool) (ps : list (argname * argname)) : bool :=
  existsb (fun p => en (fst p) && en (snd p)) ps.

Lemma clashb_spec : forall en ps, clashb en ps = true <-> clash en ps.
Proof.
  intros en ps. unfold clashb, clash. rewrite existsb_exists. split.
  - intros ([a b] & Hin & He). apply andb_true_iff in He. simpl in He.
    exists a, b. tauto.
  - intros (a & b & Hin & Ha & Hb). exists (a, b). simpl. rewrite Ha, Hb. auto.
Qed.

Lemma en_private_f : forall f, on (f_private f) = enabled_f f NPrivate.
Proof. intro f. simpl. destruct (f_private f) as [[|]|]; reflexivity. Qed.
Lemma on_some : forall o : option bool, on o = match o with Some true => true | _ => false end.
Proof. intros [[|]|]; reflexivity. Qed.
Lemma given_some : forall {A} (o : option A),
  given o = match o with Some _ => true | None => false end.
Proof. intros A [x|]; reflexivity. Qed.

(** The groups in terms of the enabled arguments. *)
Definition fgroups_of (en : argname -> bool) : list group :=
  [ ("visibility", [[("public", en NPublic)]; [("private", en NPrivate)]]);
    ("accessor mode", [[("copy", en NCopy)]; [("clone", en NClone)]]);
    ("field mode", [[("lazy", en NLazy)]; [("optional", en NOptional); ("inner_mut", en NInnerMut)]]);
    ("in-/fallible mode", [[("fallible", en NFallible)];
        [("lock", en NLock); ("optional", en NOptional); ("inner_mut", en NInnerMut)]]);
    ("concurrency mode", [[("sync", en NSync)]; [("async", en NAsync)];
        [("inner_mut", en NInnerMut)]; [("mode", en NMode)]]) ].
Definition sgroups_of (en : argname -> bool) : list group :=
  [ ("visibility", [[("public", en NPublic)]; [("private", en NPrivate)]]);
    ("accessor mode", [[("copy", en NCopy)]; [("clone", en NClone)]]);
    ("concurrency mode", [[("sync", en NSync); ("r#async", en NAsync)];
        [("inner_mut", en NInnerMut)]; [("mode", en NMode)]]);
    ("field mode", [[("lazy", en NLazy)]; [("optional", en NOptional); ("inner_mut", en NInnerMut)]]);
    ("serde/ref.counting", [[("serde", en NSerde)]; [("rc", en NRc)]]) ].

Lemma field_groups_en : forall f, field_groups f = fgroups_of (enabled_f f).
Proof.
  intro f. unfold field_groups, fgroups_of, enabled_f.
  unsaid. rewrite ?on_some, ?given_some. unfold f_is_fallible, fallible_is_true.
  destruct (f_fallible f) as [[[|] ?]|]; reflexivity.
Qed.
Lemma sargs_groups_en : forall s, sargs_groups s = sgroups_of (enabled_s s).
Proof.
  intro s. unfold sargs_groups, sgroups_of, enabled_s.
  unsaid. rewrite ?on_some, ?given_some.
  destruct (s_serde s) as [[[|] ? ? ? ? ? ? ? ?]|]; reflexivity.
Qed.

Lemma validate_cons : forall g gs,
  validate_exclusives (g :: gs) =
  ((if Nat.ltb 1 (subgroups_set (snd g)) then [(fst g, set_params (snd g))] else [])
   ++ validate_exclusives gs)%list.
Proof. reflexivity. Qed.

(** One group at a time. *)
Lemma names_cons : forall en g gs (h : string * list (argname * argname)) hs,
  fst g = fst h ->
  Nat.ltb 1 (subgroups_set (snd g)) = clashb en (snd h) ->
  map fst (validate_exclusives gs) = map fst (filter (fun x => clashb en (snd x)) hs) ->
  map fst (validate_exclusives (g :: gs))
  = map fst (filter (fun x => clashb en (snd x)) (h :: hs)).
Proof.
  intros en g gs h hs Hn Hb Ht. rewrite validate_cons, map_app, Ht, Hb. simpl.
  destruct (clashb en (snd h)); simpl; rewrite ?Hn; reflexivity.
Qed.

Ltac group_case :=
  apply names_cons; [reflexivity | cbn [snd]; unfold clashb, subgroups_set; simpl | ].

Lemma fgroups_names : forall en,
  map fst (validate_exclusives (fgroups_of en))
  = map fst (filter (fun g => clashb en (snd g)) field_conflicts).
Proof.
  intro en. unfold fgroups_of, field_conflicts.
  group_case. { destruct (en NPublic), (en NPrivate); reflexivity. }
  group_case. { destruct (en NCopy), (en NClone); reflexivity. }
  group_case. { destruct (en NLazy), (en NOptional), (en NInnerMut); reflexivity. }
  group_case.
  { destruct (en NFallible), (en NLock), (en NOptional), (en NInnerMut); reflexivity. }
  group_case.
  { destruct (en NSync), (en NAsync), (en NInnerMut), (en NMode); reflexivity. }
  reflexivity.
Qed.
Lemma sgroups_names : forall en,
  map fst (validate_exclusives (sgroups_of en))
  = map fst (filter (fun g => clashb en (snd g)) struct_conflicts).
Proof.
  intro en. unfold sgroups_of, struct_conflicts.
  group_case. { destruct (en NPublic), (en NPrivate); reflexivity. }
  group_case. { destruct (en NCopy), (en NClone); reflexivity. }
  group_case.
  { destruct (en NSync), (en NAsync), (en NInnerMut), (en NMode); reflexivity. }
  group_case. { destruct (en NLazy), (en NOptional), (en NInnerMut); reflexivity. }
  group_case. { destruct (en NSerde), (en NRc); reflexivity. }
  reflexivity.
Qed.

Lemma in_names_clash : forall en (cs : list (string * list (argname * argname))) g,
  In g (map fst (filter (fun x => clashb en (snd x)) cs)) <->
  exists ps, In (g, ps) cs /\ clash en ps.
Proof.
  intros en cs g. rewrite in_map_iff. split.
  - intros ([g' ps] & <- & Hin). apply filter_In in Hin. destruct Hin as [Hin Hc].
    exists ps. simpl in *. split; auto. now apply clashb_spec.
  - intros (ps & Hin & Hc). exists (g, ps). split; auto. apply filter_In.
    split; auto. now apply clashb_spec.
Qed.

Lemma field_errors_spec : forall f g,
  In g (map fst (field_errors f)) <->
  exists ps, In (g, ps) field_conflicts /\ clash (enabled_f f) ps.
Proof.
  intros f g. unfold field_errors. rewrite field_groups_en, fgroups_names.
  apply in_names_clash.
Qed.
Lemma sargs_errors_spec : forall s g,
  In g (map fst (sargs_errors s)) <->
  exists ps, In (g, ps) struct_conflicts /\ clash (enabled_s s) ps.
Proof.
  intros f g. unfold sargs_errors. rewrite sargs_groups_en, sgroups_names.
  apply in_names_clash.
Qed.

Lemma nodup_filter_map : forall {A B} (p : A -> bool) (h : A -> B) l,
  NoDup (map h l) -> NoDup (map h (filter p l)).
Proof.
  intros A B p h l. induction l as [|x l IH]; simpl; intro H; auto.
  inversion H as [|? ? Hn Hd]; subst. destruct (p x); simpl; auto.
  constructor; auto. intro Hin. apply Hn. apply in_map_iff in Hin.
  destruct Hin as (y & <- & Hy). apply filter_In in Hy. apply in_map. tauto.
Qed.
Lemma field_errors_nodup : forall f, NoDup (map fst (field_errors f)).
Proof.
  intro f. unfold field_errors. rewrite field_groups_en, fgroups_names.
  apply nodup_filter_map. simpl.
  repeat constructor; simpl; intuition discriminate.
Qed.
Lemma sargs_errors_nodup : forall f, NoDup (map fst (sargs_errors f)).
Proof.
  intro f. unfold sargs_errors. rewrite sargs_groups_en, sgroups_names.
  apply nodup_filter_map. simpl.
  repeat constructor; simpl; intuition discriminate.
Qed.
Lemma field_errors_enabled_only : forall f f',
  (forall n, enabled_f f n = enabled_f f' n) -> field_errors f = field_errors f'.
Proof.
  intros f f' H. unfold field_errors. rewrite !field_groups_en.
  unfold fgroups_of. rewrite !H. reflexivity.
Qed.
Lemma sargs_errors_enabled_only : forall f f',
  (forall n, enabled_s f n = enabled_s f' n) -> sargs_errors f = sargs_errors f'.
Proof.
  intros f f' H. unfold sargs_errors. rewrite !sargs_groups_en.
  unfold sgroups_of. rewrite !H. reflexivity.
Qed.

(** ** Concurrency mode *)
Lemma rc_field_no_mode : forall n w, f_is_sync (rc_field n w) = None.
Proof. reflexivity. Qed.
Lemma first_some_app_none : forall {A} (x : option A) l, x = None -> first_some (x :: l) = first_some l.
Proof. intros A x l ->. reflexivity. Qed.
(** Counting the hidden field of an rc struct makes no difference. *)
Lemma rather_sync_all_fields : forall c,
  first_some (map f_is_sync (all_fields c)) = first_some (map f_is_sync (c_input_fields c)).
Proof.
  intro c. unfold all_fields, extra_fields.
  destruct (s_is_ref_counted (c_args c)); auto. destruct (myself_field c); auto.
Qed.

Lemma struct_mode_sync : forall s m, no_mode_off_s s -> sargs_errors s = [] ->
  struct_asks_mode s m ->
  s_is_sync s = Some (match m with MPlain => false | _ => true end) /\
  unwrap_or (s_is_async s) false = (match m with MAsync => true | _ => false end).
Proof.
  intros s m [H1 H2] He Hm.
  assert (Hc : forall a b ps g, In (g, ps) struct_conflicts -> In (a, b) ps ->
             enabled_s s a = true -> enabled_s s b = true -> False).
  { intros a b ps g Hg Hp Ha Hb.
    assert (Hin : In g (map fst (sargs_errors s))).
    { apply sargs_errors_spec. exists ps. split; auto. exists a, b. auto. }
    rewrite He in Hin. inversion Hin. }
  assert (HSM : s_mode_sync s = Some true -> s_mode s = None).
  { intro E. destruct (s_mode s) eqn:Em; auto. exfalso.
    eapply (Hc NSync NMode); [right; right; left; reflexivity| simpl; tauto | |]; simpl;
      rewrite ?E, ?Em; reflexivity. }
  assert (HAM : s_mode_async s = Some true -> s_mode s = None).
  { intro E. destruct (s_mode s) eqn:Em; auto. exfalso.
    eapply (Hc NAsync NMode); [right; right; left; reflexivity| simpl; tauto | |]; simpl;
      rewrite ?E, ?Em; reflexivity. }
  unfold s_is_sync, s_is_async.
  destruct (s_mode_sync s) as [[|]|] eqn:Es; destruct (s_mode_async s) as [[|]|] eqn:Ea;
    try congruence;
    destruct (s_mode s) as [[| |]|] eqn:Em; destruct m; simpl in *; rewrite ?Es, ?Ea, ?Em in *;
    try (specialize (HSM eq_refl)); try (specialize (HAM eq_refl));
    repeat match goal with
           | H : _ \/ _ |- _ => destruct H
           | H : _ /\ _ |- _ => destruct H
           end; try discriminate; try congruence; auto.
Qed.

Lemma no_opinion_sync : forall f, no_mode_opinion f -> f_is_sync f = None /\ f_is_async f = None.
Proof.
  intros f (H1 & H2 & H3 & H4 & H5 & H6 & H7).
  unfold f_is_sync, f_is_async, f_is_plain, f_is_inner_mut.
  rewrite H1, H2, H3, H4, H5. simpl. rewrite said_on_off in H6, H7.
  destruct (on_off (f_reader f)) as [[|]|], (on_off (f_writer f)) as [[|]|];
    simpl; try congruence; auto.
Qed.

Lemma struct_mode_field : forall c f m, no_mode_off_s (c_args c) -> sargs_errors (c_args c) = [] ->
  struct_asks_mode (c_args c) m -> no_mode_opinion f -> field_mode c f = m.
Proof.
  intros c f m Ho He Hm Hn. destruct (struct_mode_sync _ _ Ho He Hm) as [Hs Ha].
  destruct (no_opinion_sync _ Hn) as [Hfs Hfa].
  unfold field_mode, is_sync, is_async, is_rather_sync. rewrite Hfs, Hfa, Hs. simpl.
  unfold obool_or. rewrite Ha. destruct m; reflexivity.
Qed.

Lemma field_mode_own : forall c f m, no_mode_off_f f -> field_errors f = [] ->
  field_asks_mode f m ->
  f_mode f <> Some MAsync ->
  (f_mode_sync f = Some true -> s_is_async (c_args c) <> Some true) ->
  field_mode c f = m.
Proof.
  intros c f m [H1 H2] He Hm Hna Hns.
  assert (Hc : forall a b, In (a, b) [(NSync, NAsync); (NSync, NInnerMut); (NSync, NMode);
                         (NAsync, NInnerMut); (NAsync, NMode); (NInnerMut, NMode)] ->
             enabled_f f a = true -> enabled_f f b = true -> False).
  { intros a b Hp Ha Hb.
    assert (Hin : In "concurrency mode" (map fst (field_errors f))).
    { apply field_errors_spec. eexists. split; [simpl; right; right; right; right; left; reflexivity|].
      exists a, b. auto. }
    rewrite He in Hin. inversion Hin. }
  assert (C1 : f_mode_sync f = Some true -> f_mode_async f = Some true -> False).
  { intros E1 E2. apply (Hc NSync NAsync); simpl; rewrite ?E1, ?E2; auto. }
  assert (C2 : forall x, f_mode_sync f = Some true -> f_mode f = Some x -> False).
  { intros x E1 E2. apply (Hc NSync NMode); simpl; rewrite ?E1, ?E2; auto. }
  assert (C3 : forall x, f_mode_async f = Some true -> f_mode f = Some x -> False).
  { intros x E1 E2. apply (Hc NAsync NMode); simpl; rewrite ?E1, ?E2; auto 6. }
  clear Hc. unfold field_mode, is_sync, is_async, f_is_sync, f_is_async.
  destruct (f_mode_sync f) as [[|]|] eqn:Es; destruct (f_mode_async f) as [[|]|] eqn:Ea;
    try congruence; try (exfalso; auto; fail);
    destruct (f_mode f) as [[| |]|] eqn:Em; try (exfalso; eauto; fail);
    destruct m; simpl in *; rewrite ?Es, ?Ea, ?Em in *;
    repeat match goal with H : _ \/ _ |- _ => destruct H end; try discriminate; auto.
  all: try congruence.
  all: try specialize (Hns eq_refl).
  all: destruct (s_is_async (c_args c)) as [[|]|]; simpl; congruence.
Qed.

Lemma rather_sync_some : forall c, s_is_sync (c_args c) = None -> is_rather_sync c = true ->
  exists f, In f (c_input_fields c) /\ f_is_sync f = Some true.
Proof.
  intros c H. unfold is_rather_sync. rewrite H. induction (c_input_fields c) as [|f l IH]; simpl.
  - discriminate.
  - destruct (f_is_sync f) as [[|]|] eqn:E.
    + exists f. auto.
    + discriminate.
    + intro Hr. destruct (IH Hr) as (g & Hg & Hs). exists g. auto.
Qed.

Lemma rather_sync_agree : forall c, s_is_sync (c_args c) = None ->
  (forall f, In f (c_input_fields c) -> f_is_sync f <> Some false) ->
  (is_rather_sync c = true <-> exists f, In f (c_input_fields c) /\ f_is_sync f = Some true).
Proof.
  intros c H Hno. split; [apply rather_sync_some; auto|].
  unfold is_rather_sync. rewrite H. induction (c_input_fields c) as [|f l IH]; simpl.
  - intros (f & [] & _).
  - intros (g & [->|Hg] & Hs).
    + rewrite Hs. reflexivity.
    + destruct (f_is_sync f) as [[|]|] eqn:E; auto.
      * exfalso. apply (Hno f); simpl; auto.
      * apply IH; eauto. intros f' Hf'. apply Hno. simpl; auto.
Qed.

Lemma asks_sync_model : forall f, not_against_sync f ->
  (f_is_sync f = Some true <-> field_asks_sync f) /\ f_is_sync f <> Some false.
Proof.
  intros f (H1 & H2 & H3 & H4 & H5 & H6).
  unfold f_is_sync, f_is_async, f_is_plain, f_is_inner_mut, field_asks_sync, field_asks_mode.
  unsaid. rewrite H6.
  destruct (f_mode_sync f) as [[|]|]; try congruence;
  destruct (f_mode f) as [[| |]|]; try congruence;
  destruct (f_mode_async f) as [[|]|]; try congruence;
  destruct (f_lock f) as [[|]|]; try congruence;
  destruct (on_off (f_reader f)) as [[|]|], (on_off (f_writer f)) as [[|]|]; simpl;
  (split; [split; [auto 6 | auto] | discriminate]);
  intros H; exfalso; repeat (destruct H as [H|H]; try discriminate H); discriminate H.
Qed.

Lemma asks_sync_only : forall f, f_is_sync f = Some true ->
  field_asks_sync f \/ f_inner_mut f = Some false.
Proof.
  intros f. unfold f_is_sync, f_is_async, f_is_plain, f_is_inner_mut, field_asks_sync, field_asks_mode.
  unsaid.
  destruct (f_mode_sync f) as [[|]|]; simpl; try discriminate; auto 6;
  destruct (f_mode f) as [[| |]|]; simpl; try discriminate; auto 6;
  destruct (f_mode_async f) as [[|]|]; simpl; try discriminate; auto 6;
  destruct (f_lock f) as [[|]|]; simpl; try discriminate; auto 6;
  destruct (f_inner_mut f) as [[|]|]; simpl; try discriminate; auto 6;
  destruct (on_off (f_reader f)) as [[|]|], (on_off (f_writer f)) as [[|]|]; simpl;
    try discriminate; auto 9.
Qed.

Lemma rather_sync_asks : forall c, s_is_sync (c_args c) = None ->
  (forall f, In f (c_input_fields c) -> not_against_sync f) ->
  (is_rather_sync c = true <-> exists f, In f (c_input_fields c) /\ field_asks_sync f).
Proof.
  intros c H Hn. rewrite rather_sync_agree; auto.
  - split; intros (f & Hin & Hf); exists f; split; auto;
      destruct (asks_sync_model f (Hn f Hin)) as [E _]; apply E; auto.
  - intros f Hin. apply asks_sync_model; auto.
Qed.
Lemma rather_sync_only : forall c, s_is_sync (c_args c) = None -> is_rather_sync c = true ->
  exists f, In f (c_input_fields c) /\ (field_asks_sync f \/ f_inner_mut f = Some false).
Proof.
  intros c H Hr. destruct (rather_sync_some c H Hr) as (f & Hin & Hf).
  exists f. split; auto. apply asks_sync_only; auto.
Qed.

(** ** Visibility *)
Lemma vis_helper : forall o, obind o helper_public_mode
  = match o with Some h => public_mode (h_public h) (h_private h) | None => None end.
Proof. intros [h|]; reflexivity. Qed.
Lemma place_vis_pub : forall p q, place_vis p q = option_map pub_tok (public_mode p q).
Proof.
  intros p q. unfold place_vis, public_mode. destruct q as [[|]|]; simpl; auto;
  destruct p as [[| | | |]|]; reflexivity.
Qed.
Lemma vis_tok_spec : forall c f k, vis_tok c f k = vis_spec (c_vis c) (c_args c) f k.
Proof.
  intros c f k. unfold vis_tok, vis_spec, first_said.
  assert (Ef : f_get_helper f k = field_arg f k) by (destruct k; reflexivity).
  assert (Es : s_get_helper (c_args c) k = struct_arg (c_args c) k) by (destruct k; reflexivity).
  rewrite Ef, Es, !vis_helper. unfold helper_vis, f_public_mode, s_public_mode.
  destruct (field_arg f k) as [h|]; rewrite ?place_vis_pub.
  - destruct (public_mode (h_public h) (h_private h)); simpl; auto.
    destruct (public_mode (f_public f) (f_private f)); simpl; auto.
    destruct (struct_arg (c_args c) k) as [h'|]; rewrite ?place_vis_pub; simpl.
    + destruct (public_mode (h_public h') (h_private h')); simpl; auto.
      destruct (public_mode (s_public (c_args c)) (s_private (c_args c))); auto.
    + destruct (public_mode (s_public (c_args c)) (s_private (c_args c))); auto.
  - simpl. destruct (public_mode (f_public f) (f_private f)); simpl; auto.
    destruct (struct_arg (c_args c) k) as [h'|]; rewrite ?place_vis_pub; simpl.
    + destruct (public_mode (h_public h') (h_private h')); simpl; auto.
      destruct (public_mode (s_public (c_args c)) (s_private (c_args c))); auto.
    + destruct (public_mode (s_public (c_args c)) (s_private (c_args c))); auto.
Qed.

(** ** Names *)
Lemma given_name_of : forall h, given_name h = obind h helper_name_of.
Proof.
  intros [h|]; simpl; auto. unfold helper_name_of. destruct (h_name h) as [n|]; auto.
  unfold strarg_value. destruct (sa_off n); auto.
Qed.

Lemma helper_name_explicit : forall c f k n,
  given_name (field_arg f k) = Some n -> n <> "" -> helper_name c f k = n.
Proof.
  intros c f k n H Hn. unfold helper_name.
  assert (Ef : f_get_helper f k = field_arg f k) by (destruct k; reflexivity).
  rewrite Ef, <- given_name_of, H. apply String.eqb_neq in Hn. rewrite Hn. reflexivity.
Qed.

Lemma helper_name_composed : forall c f k, given_name (field_arg f k) = None ->
  helper_name c f k =
  unwrap_or (or_else (given_name (struct_arg (c_args c) k)) (default_prefix k)) ""
    ++ helper_base_name f ++ unwrap_or (default_suffix k) "".
Proof.
  intros c f k H. unfold helper_name.
  assert (Ef : f_get_helper f k = field_arg f k) by (destruct k; reflexivity).
  assert (Es : s_get_helper (c_args c) k = struct_arg (c_args c) k) by (destruct k; reflexivity).
  rewrite Ef, <- given_name_of, H, Es, <- given_name_of. reflexivity.
Qed.

Fixpoint count (ch : ascii) (s : string) : nat :=
  match s with
  | EmptyString => 0
  | String x t => (if Ascii.eqb x ch then 1 else 0) + count ch t
  end.
Lemma count_app : forall ch s t, count ch (s ++ t) = count ch s + count ch t.
Proof. intros ch s t. induction s; simpl; auto. rewrite IHs. lia. Qed.

Lemma append_inj_l : forall p s t, p ++ s = p ++ t -> s = t.
Proof. intros p s t. induction p; simpl; intro H; auto. injection H. auto. Qed.
Lemma append_nil_r : forall s, s ++ "" = s.
Proof. induction s; simpl; congruence. Qed.
Lemma append_len : forall s t, String.length (s ++ t) = String.length s + String.length t.
Proof. induction s; simpl; intros; auto. Qed.
Lemma append_inj_r : forall s t x, s ++ x = t ++ x -> s = t.
Proof.
  induction s as [|a s IH]; intros [|b t] x H; simpl in *; auto.
  - exfalso. assert (String.length x = String.length (String b (t ++ x))) by congruence.
    simpl in H0. rewrite append_len in H0. lia.
  - exfalso. assert (String.length (String a (s ++ x)) = String.length x) by congruence.
    simpl in H0. rewrite append_len in H0. lia.
  - injection H as -> H. f_equal. eauto.
Qed.

Lemma affix_differ : forall ch p s p' s' b,
  count ch p + count ch s <> count ch p' + count ch s' -> p ++ b ++ s <> p' ++ b ++ s'.
Proof.
  intros ch p s p' s' b H E. apply H.
  assert (X : count ch (p ++ b ++ s) = count ch (p' ++ b ++ s')) by congruence.
  rewrite !count_app in X. lia.
Qed.

Definition affixes (k : hkind) : string * string :=
  (unwrap_or (default_prefix k) "", unwrap_or (default_suffix k) "").

Lemma kinds_distinct : forall k k' b, In k struct_kinds -> In k' struct_kinds -> k <> k' ->
  fst (affixes k) ++ b ++ snd (affixes k) <> fst (affixes k') ++ b ++ snd (affixes k').
Proof.
  intros k k' b Hk Hk' Hne.
  destruct k; destruct k'; try congruence;
    try (exfalso; simpl in Hk, Hk'; repeat (destruct Hk as [Hk|Hk]; try discriminate Hk; auto);
         repeat (destruct Hk' as [Hk'|Hk']; try discriminate Hk'; auto); fail);
    first [ apply affix_differ with (ch := "c"%char); vm_compute; discriminate
          | apply affix_differ with (ch := "u"%char); vm_compute; discriminate
          | apply affix_differ with (ch := "b"%char); vm_compute; discriminate
          | apply affix_differ with (ch := "h"%char); vm_compute; discriminate
          | apply affix_differ with (ch := "s"%char); vm_compute; discriminate
          | apply affix_differ with (ch := "w"%char); vm_compute; discriminate
          | apply affix_differ with (ch := "r"%char); vm_compute; discriminate ].
Qed.

Lemma names_distinct_kinds : forall c f k k',
  In k struct_kinds -> In k' struct_kinds -> k <> k' ->
  given_name (field_arg f k) = None -> given_name (field_arg f k') = None ->
  given_name (struct_arg (c_args c) k) = None -> given_name (struct_arg (c_args c) k') = None ->
  helper_name c f k <> helper_name c f k'.
Proof.
  intros c f k k' Hk Hk' Hne H1 H2 H3 H4.
  rewrite !helper_name_composed by auto. rewrite H3, H4.
  apply (kinds_distinct k k' (helper_base_name f)); auto.
Qed.

Lemma names_distinct_fields : forall c f f' k,
  given_name (field_arg f k) = None -> given_name (field_arg f' k) = None ->
  helper_base_name f <> helper_base_name f' -> helper_name c f k <> helper_name c f' k.
Proof.
  intros c f f' k H1 H2 Hb E. rewrite !helper_name_composed in E by auto.
  apply append_inj_l in E. apply append_inj_r in E. auto.
Qed.

(** ** Default *)
Lemma has_default_gives : forall f, f_has_default_value f = true <-> gives_default f.
Proof.
  intro f. unfold f_has_default_value, gives_default, defarg_is_true.
  destruct (f_default f) as [d|].
  - destruct (d_off d) eqn:E; simpl; split; intro H.
    + discriminate.
    + destruct H as (x & Hx & Hy). injection Hx as <-. congruence.
    + exists d. auto.
    + reflexivity.
  - split; [discriminate|]. intros (x & Hx & _). discriminate.
Qed.

Lemma needs_default_spec : forall c,
  said (s_lazy (c_args c)) <> Some true ->
  (needs_default c = true <->
   (s_default (c_args c) = Some true \/
    (s_default (c_args c) = None /\
     (s_no_new (c_args c) <> Some true
      \/ (exists f, In f (c_input_fields c) /\ gives_default f)
      \/ (is_rather_sync c = true /\ exists f, In f (c_input_fields c) /\ is_lazy c f = true))))).
Proof.
  intros c Hl. unfold needs_default, s_needs_default, s_needs_new, s_needs_default.
  destruct (s_default (c_args c)) as [[|]|].
  - intuition.
  - split; [discriminate|]. intros [?|[? _]]; discriminate.
  - simpl. rewrite andb_true_r, orb_true_iff, negb_true_iff, existsb_exists.
    assert (Hlz : forall f, obool_or (f_is_lazy f) false = is_lazy c f).
    { intro f. unfold is_lazy, s_is_lazy. rewrite said_on_off in Hl.
      destruct (f_is_lazy f); simpl; auto.
      destruct (on_off (s_lazy (c_args c))) as [[|]|]; simpl; congruence. }
    split.
    + intros [H|(f & Hin & H)]; right; split; auto.
      * left. intro E. rewrite E in H. discriminate.
      * apply orb_true_iff in H. destruct H as [H|H].
        -- right. left. exists f. split; auto. now apply has_default_gives.
        -- apply andb_true_iff in H. destruct H as [Hr Hf]. right. right. split; auto.
           exists f. rewrite <- Hlz. auto.
    + intros [H|[_ [H|[(f & Hin & H)|(Hr & f & Hin & H)]]]]; try discriminate.
      * left. destruct (s_no_new (c_args c)) as [[|]|]; simpl; congruence.
      * right. exists f. split; auto. apply has_default_gives in H. rewrite H. reflexivity.
      * right. exists f. split; auto. rewrite Hlz, H, Hr. apply orb_true_r.
Qed.

(** ** Names listed by a conflict message *)
Lemma params_in : forall gs g ns, In (g, ns) (validate_exclusives gs) ->
  exists alts, In (g, alts) gs /\ ns = set_params alts.
Proof.
  intros gs g ns H. unfold validate_exclusives in H. apply in_flat_map in H.
  destruct H as ([g' alts] & Hin & H). simpl in H.
  destruct (Nat.ltb 1 (subgroups_set alts)); [|contradiction].
  destruct H as [E|[]]. inversion E. subst. eauto.
Qed.
Lemma filter_names : forall (en : argname -> bool) (ms : list (argname * string)),
  map fst (filter snd (map (fun m => (snd m, en (fst m))) ms))
  = map snd (filter (fun m => en (fst m)) ms).
Proof.
  intros en ms. induction ms as [|[n t] ms IH]; simpl; auto.
  destruct (en n); simpl; rewrite IH; reflexivity.
Qed.
Lemma field_error_names : forall f g ns, In (g, ns) (field_errors f) ->
  exists ms, In (g, ms) field_members /\
    ns = map snd (filter (fun m => enabled_f f (fst m)) ms).
Proof.
  intros f g ns H. unfold field_errors in H. rewrite field_groups_en in H.
  apply params_in in H. destruct H as (alts & Hin & ->). unfold set_params.
  unfold fgroups_of in Hin. simpl in Hin.
  repeat (destruct Hin as [E|Hin];
    [inversion E; subst; clear E; eexists; split;
      [unfold field_members; simpl; eauto 8 | rewrite <- filter_names; reflexivity]|]).
  contradiction.
Qed.
Lemma struct_error_names : forall s g ns, In (g, ns) (sargs_errors s) ->
  exists ms, In (g, ms) struct_members /\
    ns = map snd (filter (fun m => enabled_s s (fst m)) ms).
Proof.
  intros f g ns H. unfold sargs_errors in H. rewrite sargs_groups_en in H.
  apply params_in in H. destruct H as (alts & Hin & ->). unfold set_params.
  unfold sgroups_of in Hin. simpl in Hin.
  repeat (destruct Hin as [E|Hin];
    [inversion E; subst; clear E; eexists; split;
      [unfold struct_members; simpl; eauto 8 | rewrite <- filter_names; reflexivity]|]).
  contradiction.
Qed.

(** ** The two ways of choosing the accessor flavour *)
Lemma mode_agrees : forall c f,
  f_copy f <> Some false -> f_clone f <> Some false ->
  s_copy (c_args c) <> Some false -> s_clone (c_args c) <> Some false ->
  ~ (f_copy f = Some true /\ f_clone f = Some true) ->
  ~ (s_copy (c_args c) = Some true /\ s_clone (c_args c) = Some true) ->
  (accessor_mode c f = AMCopy <-> is_copy c f = true) /\
  (accessor_mode c f = AMClone <-> is_clone c f = true).
Proof.
  intros c f. unfold accessor_mode, is_copy, is_clone,
    f_is_accessor_copy, f_is_accessor_clone, s_is_accessor_copy, s_is_accessor_clone,
    f_is_copy, f_is_clone, s_is_copy, s_is_clone.
  destruct (f_accessor_mode f) as [[| | |]|]; simpl;
    try (intros; split; split; congruence);
  destruct (f_copy f) as [[|]|], (f_clone f) as [[|]|]; simpl;
    try (intros; split; split; congruence);
    try (intros; exfalso; auto; fail);
  destruct (s_accessor_mode (c_args c)) as [[| | |]|]; simpl;
    try (intros; split; split; congruence);
  destruct (s_copy (c_args c)) as [[|]|], (s_clone (c_args c)) as [[|]|]; simpl;
    try (intros; split; split; congruence);
    try (intros; exfalso; auto; fail).
Qed.
Lemma both_flavours_f : forall f, f_copy f = Some true -> f_clone f = Some true ->
  field_errors f <> [].
Proof.
  intros f H H' E.
  assert (Hin : In "accessor mode" (map fst (field_errors f))).
  { apply field_errors_spec. eexists. split; [simpl; right; left; reflexivity|].
    exists NCopy, NClone. simpl. rewrite H, H'. auto. }
  rewrite E in Hin. inversion Hin.
Qed.
Lemma both_flavours_s : forall s, s_copy s = Some true -> s_clone s = Some true ->
  sargs_errors s <> [].
Proof.
  intros f H H' E.
  assert (Hin : In "accessor mode" (map fst (sargs_errors f))).
  { apply sargs_errors_spec. eexists. split; [simpl; right; left; reflexivity|].
    exists NCopy, NClone. simpl. rewrite H, H'. auto. }
  rewrite E in Hin. inversion Hin.
Qed.
Lemma same_flavour : forall c f,
  f_copy f <> Some false -> f_clone f <> Some false ->
  s_copy (c_args c) <> Some false -> s_clone (c_args c) <> Some false ->
  field_errors f = [] -> sargs_errors (c_args c) = [] ->
  (accessor_mode c f = AMCopy <-> is_copy c f = true) /\
  (accessor_mode c f = AMClone <-> is_clone c f = true).
Proof.
  intros c f H1 H2 H3 H4 H5 H6. apply mode_agrees; auto.
  - intros [E1 E2]. exact (both_flavours_f f E1 E2 H5).
  - intros [E1 E2]. exact (both_flavours_s _ E1 E2 H6).
Qed.
