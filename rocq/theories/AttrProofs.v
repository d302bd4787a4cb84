(** Proofs about the placement of attributes. *)
From Coq Require Import List Bool String Ascii.
From Verif Require Import ArgsModel CtxModel RustAst CommonGen StructGen CodegenStruct
  AttrModel AttrSpec.
Import ListNotations.
Open Scope string_scope.

Lemma toks_or : forall x y, toks (or_else x y) = nearest [x; y].
Proof. intros [x|] [y|]; reflexivity. Qed.

Lemma field_helper : forall f k, obind (f_get_helper f k) h_attributes_fn = fn_field f k.
Proof.
  intros f k. destruct k; reflexivity.
Qed.
Lemma struct_helper : forall s k, obind (s_get_helper s k) h_attributes_fn = fn_struct s k.
Proof.
  intros s k. destruct k; reflexivity.
Qed.
Lemma fn_documented : forall c f k,
  toks (attributes_fn c f k) = nearest [fn_field f k; f_attributes_fn f; fn_struct (c_args c) k].
Proof.
  intros c f k. unfold attributes_fn. rewrite field_helper, struct_helper.
  destruct (fn_field f k), (f_attributes_fn f), (fn_struct (c_args c) k); reflexivity.
Qed.

(** An item of a field is one of the list. *)
Lemma item_cases : forall c f p l, In (p, l) (field_items c f) ->
  (p = AtField f /\ l = f_attrs f) \/
  (exists ms m, field_methods c f = GOk ms /\ In m ms /\ p = AtMethod f (m_kind m) /\
     l = toks (m_attrs m)) \/
  (f_is_skipped f = false /\ needs_builder_struct c = true /\
   ((p = AtBuilderField f /\ l = toks (builder_field_attributes f)) \/
    exists m, field_builder (cfg_of c f) = Some m /\ p = AtBuilderSetter f /\
      l = toks (m_attrs m))) \/
  (s_is_serde (c_args c) = true /\ is_serde c f = true /\ p = AtShadowField f /\
   l = shadow_field_attributes c f).
Proof.
  intros c f p l H. unfold field_items in H. destruct H as [H|H]; [injection H as <- <-; auto|].
  rewrite ! in_app_iff in H. destruct H as [H|[H|H]].
  - right; left. destruct (field_methods c f) as [ms|e|] eqn:M; try contradiction.
    apply in_map_iff in H. destruct H as (m & E & I). injection E as <- <-. exists ms, m. auto.
  - right; right; left. destruct (f_is_skipped f); [contradiction|].
    destruct (needs_builder_struct c); [|contradiction]. cbn in H.
    split; [reflexivity|]. split; [reflexivity|].
    destruct H as [H|H]; [injection H as <- <-; auto|]. right.
    destruct (field_builder (cfg_of c f)) as [m|]; [|contradiction].
    destruct H as [H|[]]. injection H as <- <-. exists m. auto.
  - right; right; right. destruct (s_is_serde (c_args c)); [|contradiction].
    destruct (is_serde c f); [|contradiction]. destruct H as [H|[]].
    injection H as <- <-. auto.
Qed.
Lemma placed_cases : forall c p l, In (p, l) (placed c) ->
  (p = AtStructImpl /\ l = toks (s_attributes_impl (c_args c))) \/
  (needs_builder_struct c = true /\ p = AtBuilderStruct /\ l = toks (builder_attributes c)) \/
  (needs_builder_struct c = true /\ p = AtBuilderImpl /\ l = toks (builder_impl_attributes c)) \/
  (s_is_serde (c_args c) = true /\ p = AtShadowStruct /\ l = toks (shadow_struct_attributes c)) \/
  (exists f, In f (all_fields c) /\ In (p, l) (field_items c f)).
Proof.
  intros c p l H. unfold placed in H. destruct H as [H|H]; [injection H as <- <-; auto|].
  rewrite ! in_app_iff in H. destruct H as [H|[H|H]].
  - destruct (needs_builder_struct c); [|contradiction].
    destruct H as [H|[H|[]]]; injection H as <- <-; auto 10.
  - destruct (s_is_serde (c_args c)); [|contradiction].
    destruct H as [H|[]]; injection H as <- <-; auto 10.
  - apply in_flat_map in H. destruct H as (f & I & H). right; right; right; right. exists f. auto.
Qed.

(** The places where the documentation holds without further conditions. *)
Definition plain_place (c : sctx) (p : place) : Prop :=
  match p with
  | AtShadowStruct | AtShadowField _ => False
  | AtMethod f KAccessorMut => is_sync c f = false
  | _ => True
  end.

Lemma method_attrs : forall c f ms m, field_methods c f = GOk ms -> In m ms ->
  toks (m_attrs m)
  = documented c (AtMethod f (vis_kind (is_sync c f) (m_kind m))).
Proof.
  intros c f ms m H I. destruct (field_decls c f ms m H I) as (_ & _ & -> & _).
  apply fn_documented.
Qed.

Lemma placed_documented : forall c p l, In (p, l) (placed c) -> plain_place c p ->
  l = documented c p.
Proof.
  intros c p l H P. destruct (placed_cases c p l H)
    as [(-> & ->)|[(_ & -> & ->)|[(_ & -> & ->)|[(_ & -> & ->)|(f & _ & I)]]]].
  - cbn. destruct (s_attributes_impl (c_args c)); reflexivity.
  - apply toks_or.
  - apply toks_or.
  - destruct P.
  - destruct (item_cases c f p l I)
      as [(-> & ->)|[(ms & m & M & Im & -> & ->)|[(_ & _ & [(-> & ->)|(m & B & -> & ->)])|(_ & _ & -> & _)]]].
    + reflexivity.
    + rewrite (method_attrs c f ms m M Im). cbn in P. unfold vis_kind.
      destruct (m_kind m); try reflexivity. rewrite P. reflexivity.
    + cbn. unfold builder_field_attributes. destruct (f_builder f) as [b|]; [|reflexivity].
      cbn. destruct (b_attributes b); reflexivity.
    + unfold field_builder in B. destruct (_ || _); [|discriminate]. injection B as <-.
      apply fn_documented.
    + destruct P.
Qed.

Lemma sync_get_mut : forall c f l, In (AtMethod f KAccessorMut, l) (placed c) ->
  is_sync c f = true -> l = documented c (AtMethod f KAccessor).
Proof.
  intros c f l H Y. destruct (placed_cases c _ l H)
    as [(E & _)|[(_ & E & _)|[(_ & E & _)|[(_ & E & _)|(f' & _ & I)]]]]; try discriminate E.
  destruct (item_cases c f' _ l I)
      as [(E & _)|[(ms & m & M & Im & E & ->)|[(_ & _ & [(E & _)|(m & _ & E & _)])|(_ & _ & E & _)]]];
    try discriminate E.
  injection E as <- K. rewrite (method_attrs c f ms m M Im), <- K. cbn. rewrite Y. reflexivity.
Qed.

(** ** The shadow struct *)
Lemma shadow_struct_is : forall c l, In (AtShadowStruct, l) (placed c) ->
  l = nearest [match s_serde (c_args c) with Some h => se_attributes h | None => None end].
Proof.
  intros c l H. destruct (placed_cases c _ l H)
    as [(E & _)|[(_ & E & _)|[(_ & E & _)|[(_ & _ & ->)|(f & _ & I)]]]]; try discriminate E.
  - unfold shadow_struct_attributes. destruct (s_serde (c_args c)) as [h|]; [|reflexivity].
    cbn. destruct (se_attributes h); reflexivity.
  - destruct (item_cases c f _ l I)
      as [(E & _)|[(ms & m & M & Im & E & _)|[(_ & _ & [(E & _)|(m & _ & E & _)])|(_ & _ & E & _)]]];
      discriminate E.
Qed.
Lemma shadow_field_is : forall c f l, In (AtShadowField f, l) (placed c) ->
  l = shadow_field_attributes c f /\ s_is_serde (c_args c) = true.
Proof.
  intros c f l H. destruct (placed_cases c _ l H)
    as [(E & _)|[(_ & E & _)|[(_ & E & _)|[(_ & E & _)|(f' & _ & I)]]]]; try discriminate E.
  destruct (item_cases c f' _ l I)
      as [(E & _)|[(ms & m & M & Im & E & _)|[(_ & _ & [(E & _)|(m & _ & E & _)])|(S & _ & E & ->)]]];
    try discriminate E.
  injection E as <-. auto.
Qed.

(** Attributes of the user on a shadow field: its own, else those of the struct; then of
    the field's attributes the serde ones and those its list, or the struct's when the
    field says nothing about serde, contains, or all when there is no list. *)
Definition list_used (c : sctx) (f : field) : option (list string) :=
  match f_serde f with
  | Some h => se_forward_attrs h
  | None => match s_serde (c_args c) with Some h => se_forward_attrs h | None => None end
  end.
Lemma ends_is : forall a, ends_path a = after_name a.
Proof. intros [[] [] [] [] [] [] [] []]; reflexivity. Qed.
Lemma path_is : forall x p, String.eqb (path_of x) p = is_named x p.
Proof.
  induction x as [|a x IH]; intros [|b p]; try reflexivity.
  - unfold is_named. simpl. destruct (negb (after_name b)); simpl; [|reflexivity]. rewrite andb_false_r. reflexivity.
  - unfold is_named. simpl. rewrite <- ends_is. destruct (ends_path a); reflexivity.
  - unfold is_named in *. simpl. specialize (IH p). rewrite ends_is.
    destruct (ascii_dec b a) as [->|N].
    + destruct (after_name a); simpl; [reflexivity|]. rewrite Ascii.eqb_refl. exact IH.
    + rewrite andb_false_r. simpl. destruct (after_name a); simpl; [reflexivity|].
      destruct (Ascii.eqb_spec a b); [congruence|reflexivity].
Qed.
Lemma kept_is : forall ps x, String.eqb (path_of x) "serde" || existsb (String.eqb (path_of x)) ps
  = is_named x "serde" || existsb (is_named x) ps.
Proof.
  intros ps x. rewrite path_is. f_equal. induction ps as [|p ps IH]; [reflexivity|]. simpl.
  rewrite path_is, IH. reflexivity.
Qed.
Lemma shadow_field_exact : forall c f l, In (AtShadowField f, l) (placed c) ->
  l = (nearest [match f_serde f with Some h => se_attributes h | None => None end;
               s_attributes (c_args c)]
      ++ match list_used c f with
         | Some ps => filter (fun x => is_named x "serde" || existsb (is_named x) ps) (f_attrs f)
         | None => f_attrs f
         end)%list.
Proof.
  intros c f l H. destruct (shadow_field_is c f l H) as (-> & S).
  unfold shadow_field_attributes. f_equal; [apply toks_or|].
  assert (K : forall q : list string, filter (fun _ => true) q = q).
  { intros q. induction q; cbn; congruence. }
  unfold shadow_keeps, list_used, accepts_attr.
  destruct (f_serde f) as [h|].
  - cbn. destruct (se_forward_attrs h); [apply filter_ext, kept_is|].
    rewrite <- (K (f_attrs f)) at 2. apply filter_ext. intros x. apply orb_true_r.
  - cbn. unfold s_is_serde in S. destruct (s_serde (c_args c)) as [h|]; [|discriminate].
    destruct (se_forward_attrs h); [apply filter_ext, kept_is|].
    rewrite <- (K (f_attrs f)) at 2. apply filter_ext. intros x. apply orb_true_r.
Qed.

(** ** Nothing is missing *)
Lemma item_placed : forall c f x, In f (all_fields c) -> In x (field_items c f) -> In x (placed c).
Proof.
  intros c f x I H. unfold placed. right. rewrite ! in_app_iff. right. right.
  apply in_flat_map. exists f. auto.
Qed.
Lemma placed_present : forall c,
  (exists l, In (AtStructImpl, l) (placed c)) /\
  (forall f, In f (all_fields c) -> In (AtField f, f_attrs f) (placed c)) /\
  (forall f ms m, In f (all_fields c) -> field_methods c f = GOk ms -> In m ms ->
     exists l, In (AtMethod f (m_kind m), l) (placed c)) /\
  (needs_builder_struct c = true ->
     (exists l, In (AtBuilderStruct, l) (placed c)) /\ (exists l, In (AtBuilderImpl, l) (placed c)) /\
     (forall f, In f (builder_input c) -> exists l, In (AtBuilderField f, l) (placed c))) /\
  (s_is_serde (c_args c) = true ->
     (exists l, In (AtShadowStruct, l) (placed c)) /\
     forall f, In f (shadow_input c) -> exists l, In (AtShadowField f, l) (placed c)).
Proof.
  intros c. split; [|split; [|split; [|split]]].
  - eexists. left. reflexivity.
  - intros f I. apply item_placed with f; [exact I|]. left. reflexivity.
  - intros f ms m I M Im. eexists. apply item_placed with f; [exact I|].
    unfold field_items. rewrite M. right. apply in_app_iff. left.
    apply in_map_iff. exists m. split; [reflexivity|exact Im].
  - intros B. split; [|split].
    + eexists. unfold placed. rewrite B. right. left. reflexivity.
    + eexists. unfold placed. rewrite B. right. right. left. reflexivity.
    + intros f I. apply filter_In in I. destruct I as (I & K). eexists.
      apply item_placed with f; [exact I|]. unfold field_items. right.
      rewrite ! in_app_iff. right. left. rewrite K, B. left. reflexivity.
  - intros S. split.
    + eexists. unfold placed. rewrite S. right. rewrite ! in_app_iff. right. left. left. reflexivity.
    + intros f I. apply filter_In in I. destruct I as (I & K). eexists.
      apply item_placed with f; [exact I|]. unfold field_items. right.
      rewrite ! in_app_iff. right. right. rewrite K, S. left. reflexivity.
Qed.
