(** Proofs about the generic parameters in generated items. *)
From Coq Require Import List Bool String Lia.
From Verif Require Import ArgsModel CtxModel StructGen SerdeModel TokenSpec TokenModel TokenProofs
  GenericsSpec GenericsModel.
Import ListNotations.
Open Scope string_scope.
Open Scope list_scope.

Definition form (w : printed) : gparam -> list tok :=
  match w with PGenerics => gp_decl_toks | PImplGenerics => gp_impl_toks | PTypeGenerics => gp_name_toks end.
Definition own_place (w : printed) : place :=
  match w with PGenerics => AtStruct | PImplGenerics => AtImpl | PTypeGenerics => AtUse end.

Lemma flat_not_nil : forall t, flat t <> [].
Proof. intros []; discriminate. Qed.
Lemma text_nil : forall l, text l = [] -> l = [].
Proof. intros [|t l] H; [reflexivity|]. rewrite text_cons in H. apply app_eq_nil in H. now destruct (flat_not_nil t). Qed.
Lemma after_text : forall s l,
  text (match l with [] => [] | t :: r => TPunct s :: t :: r end) = after s (text l).
Proof.
  intros s [|t l]; [reflexivity|]. rewrite text_cons. unfold after.
  destruct (text (t :: l)) eqn:E; [now apply text_nil in E|reflexivity].
Qed.
Lemma form_text : forall w p, text (form w p) = param_text (own_place w) (param_of p).
Proof.
  intros [] [k n b d]; unfold form, own_place, param_text, gp_decl_toks, gp_impl_toks, param_of;
    cbn [p_name p_const p_bound p_default gp_kind gp_name gp_bound gp_default];
    rewrite ?text_app, ?after_text; destruct k; reflexivity.
Qed.
Lemma print_text : forall w gs,
  text (print_generics w gs) = params_text (own_place w) (map param_of gs).
Proof.
  intros w [|g gs]; [reflexivity|]. unfold print_generics, params_text.
  change (match w with PGenerics => gp_decl_toks | PImplGenerics => gp_impl_toks | PTypeGenerics => gp_name_toks end)
    with (form w).
  rewrite text_cons, text_app, join_text, !map_map.
  rewrite (map_ext _ _ (form_text w)). reflexivity.
Qed.

Lemma commas_length : forall l, List.length (commas l) = list_sum (map (@List.length atom) l) + (List.length l - 1).
Proof.
  induction l as [|x [|y r] IH]; [reflexivity|simpl; lia|].
  change (commas (x :: y :: r)) with (x ++ APunct "," :: commas (y :: r)).
  rewrite app_length. change (List.length (APunct "," :: commas (y :: r))) with (S (List.length (commas (y :: r)))).
  rewrite IH. simpl. lia.
Qed.
Lemma params_text_inj : forall (f g : param -> list atom) ps,
  (forall p, List.length (g p) <= List.length (f p)) ->
  commas (map f ps) = commas (map g ps) -> Forall (fun p => List.length (f p) = List.length (g p)) ps.
Proof.
  intros f g ps H E. apply (f_equal (@List.length atom)) in E.
  rewrite !commas_length, !map_map, !map_length in E.
  assert (Hs : forall l, list_sum (map (fun x => List.length (g x)) l) <= list_sum (map (fun x => List.length (f x)) l)).
  { induction l; simpl; [lia|]. specialize (H a). lia. }
  assert (E' : list_sum (map (fun x => List.length (f x)) ps) = list_sum (map (fun x => List.length (g x)) ps)) by lia.
  clear E. induction ps as [|p ps IH]; [constructor|]. simpl in E'.
  pose proof (H p). pose proof (Hs ps). constructor; [lia|]. apply IH. lia.
Qed.

Lemma after_length : forall s l, List.length (after s l) = match l with [] => 0 | _ => S (List.length l) end.
Proof. intros s []; reflexivity. Qed.
Lemma struct_use_length : forall p, List.length (param_text AtUse p) <= List.length (param_text AtStruct p).
Proof. intros p. unfold param_text. rewrite !app_length. lia. Qed.
Lemma struct_impl_length : forall p, List.length (param_text AtImpl p) <= List.length (param_text AtStruct p).
Proof. intros p. unfold param_text. rewrite !app_length. lia. Qed.

Lemma wrap_inv : forall (a b : list atom),
  APunct "<" :: a ++ [APunct ">"] = APunct "<" :: b ++ [APunct ">"] -> a = b.
Proof. intros a b H. injection H as H. now apply app_inv_tail in H. Qed.

Lemma use_iff : forall ps, params_text AtStruct ps = params_text AtUse ps <-> Forall bare ps.
Proof.
  intros ps. split.
  - destruct ps as [|p0 ps]; [constructor|]. intros H. unfold params_text in H. apply wrap_inv in H.
    apply params_text_inj in H; [|apply struct_use_length].
    eapply Forall_impl; [|exact H]. intros p E. unfold param_text in E. rewrite !app_length, !after_length in E.
    unfold bare. destruct (p_const p), (p_bound p), (p_default p); simpl in E; try lia. tauto.
  - intros H. unfold params_text. destruct ps as [|p0 ps]; [reflexivity|]. do 2 f_equal.
    f_equal. apply map_ext_Forall. eapply Forall_impl; [|exact H]. intros p (E1 & E2 & E3).
    unfold param_text. rewrite E1, E2, E3. simpl. now rewrite !app_nil_r.
Qed.
Definition no_default (p : param) : Prop := p_default p = [].
Lemma impl_iff : forall ps, params_text AtStruct ps = params_text AtImpl ps <-> Forall no_default ps.
Proof.
  intros ps. split.
  - destruct ps as [|p0 ps]; [constructor|]. intros H. unfold params_text in H. apply wrap_inv in H.
    apply params_text_inj in H; [|apply struct_impl_length].
    eapply Forall_impl; [|exact H]. intros p E. unfold param_text in E. rewrite !app_length, !after_length in E.
    unfold no_default. destruct (p_default p); [reflexivity|]. lia.
  - intros H. unfold params_text. destruct ps as [|p0 ps]; [reflexivity|]. do 2 f_equal.
    f_equal. apply map_ext_Forall. eapply Forall_impl; [|exact H]. intros p E.
    unfold param_text. rewrite E. simpl. now rewrite !app_nil_r.
Qed.

(** What an occurrence asks of the parameters. *)
Definition asks (o : occ) (ps : list param) : Prop :=
  match o_place o, o_printed o with
  | AtUse, PGenerics => Forall bare ps
  | AtImpl, PGenerics => Forall no_default ps
  | _, _ => True
  end.
Definition harmless (o : occ) : bool :=
  match o_place o, o_printed o with
  | AtStruct, PGenerics | AtImpl, PImplGenerics | AtUse, PTypeGenerics
  | AtUse, PGenerics | AtImpl, PGenerics => true
  | _, _ => false
  end.
Lemma right_iff : forall gs o, harmless o = true -> (right gs o <-> asks o (map param_of gs)).
Proof.
  intros gs [i w r] H. unfold right, asks. simpl o_printed; simpl o_place. rewrite print_text.
  destruct w, r; try discriminate H; simpl own_place; try tauto.
  - apply impl_iff.
  - apply use_iff.
Qed.
Lemma all_harmless : forall c, forallb harmless (generic_occs c) = true.
Proof.
  intros c. unfold generic_occs, default_occs, builder_occs, field_occs, serde_occs.
  rewrite !forallb_app.
  destruct (needs_default c), (needs_builder_struct c), (s_is_ref_counted (c_args c)),
    (existsb (fun f : field => is_sync c f && is_lazy c f) (all_fields c)), (s_is_serde (c_args c)); cbn [forallb app andb harmless];
    rewrite ?forallb_app;
    destruct (s_needs_deserialize (c_args c)), (s_needs_serialize (c_args c)), (from_shadow_emitted c),
      (into_shadow_emitted c), (serde_default_arg (s_serde (c_args c))) as [d|]; try destruct (d_value d); reflexivity.
Qed.
Lemma bare_no_default : forall ps, Forall bare ps -> Forall no_default ps.
Proof. intros ps. apply Forall_impl. now intros p (_ & _ & H). Qed.

Lemma rights : forall c gs, Forall (right gs) (generic_occs c) <->
  Forall (fun o => asks o (map param_of gs)) (generic_occs c).
Proof.
  intros c gs. rewrite !Forall_forall. pose proof (all_harmless c) as H. rewrite forallb_forall in H.
  split; intros Hr o Ho; specialize (Hr o Ho); specialize (H o Ho); now apply (right_iff gs o H).
Qed.

(** A default given to serde as an expression or a path. *)
Definition shadow_default_code (c : sctx) : bool :=
  match serde_default_arg (s_serde (c_args c)) with
  | Some d => is_some (d_value d)
  | None => false
  end.
Definition names_needed (c : sctx) : Prop :=
  needs_builder_struct c = true /\ s_is_ref_counted (c_args c) = true \/
  s_is_serde (c_args c) = true /\
  (s_needs_deserialize (c_args c) = true \/ s_needs_serialize (c_args c) = true \/
   needs_default c = true \/ shadow_default_code c = true).
Lemma asks_list : forall ps l,
  Forall (fun o => asks o ps) l <->
  ((exists o, In o l /\ o_place o = AtUse /\ o_printed o = PGenerics) -> Forall bare ps) /\
  ((exists o, In o l /\ o_place o = AtImpl /\ o_printed o = PGenerics) -> Forall no_default ps).
Proof.
  intros ps l. rewrite Forall_forall. split.
  - intros H. split; intros (o & Ho & E1 & E2); specialize (H o Ho); unfold asks in H; now rewrite E1, E2 in H.
  - intros [H1 H2] o Ho. unfold asks.
    destruct (o_place o) eqn:E1, (o_printed o) eqn:E2; try exact I.
    + apply H2. now exists o.
    + apply H1. now exists o.
Qed.

Definition at_place (w : place) (o : occ) : bool :=
  match o_printed o, o_place o, w with
  | PGenerics, AtUse, AtUse | PGenerics, AtImpl, AtImpl => true
  | _, _, _ => false
  end.
Lemma at_place_exists : forall w l, w <> AtStruct ->
  (exists o, In o l /\ o_place o = w /\ o_printed o = PGenerics) <-> existsb (at_place w) l = true.
Proof.
  intros w l Hw. rewrite existsb_exists. split; intros (o & Ho & H); exists o; (split; [exact Ho|]).
  - destruct H as [E1 E2]. unfold at_place. rewrite E1, E2. now destruct w.
  - unfold at_place in H. destruct (o_printed o), (o_place o), w; try discriminate H; now split.
Qed.

Lemma use_places : forall c, existsb (at_place AtUse) (generic_occs c) = true <-> names_needed c.
Proof.
  intros c. unfold generic_occs, default_occs, builder_occs, field_occs, serde_occs, names_needed, shadow_default_code,
    from_shadow_emitted, into_shadow_emitted.
  rewrite !existsb_app.
  destruct (needs_default c), (needs_builder_struct c), (s_is_ref_counted (c_args c)),
    (existsb (fun f : field => is_sync c f && is_lazy c f) (all_fields c)), (s_is_serde (c_args c)),
    (s_needs_deserialize (c_args c)), (s_needs_serialize (c_args c));
    destruct (serde_default_arg (s_serde (c_args c))) as [d|]; try destruct (d_value d);
    vm_compute; intuition congruence.
Qed.
Lemma impl_places : forall c, existsb (at_place AtImpl) (generic_occs c) = true ->
  needs_builder_struct c = true \/ names_needed c.
Proof.
  intros c. unfold generic_occs, default_occs, builder_occs, field_occs, serde_occs, names_needed, shadow_default_code,
    from_shadow_emitted, into_shadow_emitted.
  rewrite !existsb_app.
  destruct (needs_default c), (needs_builder_struct c), (s_is_ref_counted (c_args c)),
    (existsb (fun f : field => is_sync c f && is_lazy c f) (all_fields c)), (s_is_serde (c_args c)),
    (s_needs_deserialize (c_args c)), (s_needs_serialize (c_args c));
    destruct (serde_default_arg (s_serde (c_args c))) as [d|]; try destruct (d_value d);
    vm_compute; intuition congruence.
Qed.
Lemma builder_place : forall c, needs_builder_struct c = true -> existsb (at_place AtImpl) (generic_occs c) = true.
Proof.
  intros c H. unfold generic_occs, builder_occs. rewrite !existsb_app, H.
  destruct (s_is_ref_counted (c_args c)); simpl; rewrite ?orb_true_r; reflexivity.
Qed.

Lemma all_right_iff : forall c gs,
  Forall (right gs) (generic_occs c) <->
  (names_needed c -> Forall bare (map param_of gs)) /\
  (needs_builder_struct c = true -> Forall no_default (map param_of gs)).
Proof.
  intros c gs. rewrite rights, asks_list, !at_place_exists by discriminate. rewrite use_places.
  split; intros [H1 H2]; split; try assumption.
  - intros H. apply H2. now apply builder_place.
  - intros H. destruct (impl_places c H) as [H3|H3]; [now apply H2|].
    now apply bare_no_default, H1.
Qed.

(** ** Item by item *)
Definition serde_items : list string :=
  ["serde(from)"; "serde(into)"; "impl Default for shadow"; "fn shadow default"; "impl From<shadow>";
   "impl From<struct> for shadow"].
Lemma serde_items_as_declared : forall c o, In o (generic_occs c) -> In (o_item o) serde_items ->
  o_printed o = PGenerics.
Proof.
  intros c o H I.
  assert (E : forallb (fun o => match o_printed o with PGenerics => true | _ => false end
                                || negb (existsb (String.eqb (o_item o)) serde_items)) (generic_occs c) = true).
  { unfold generic_occs, default_occs, builder_occs, field_occs, serde_occs, conversion. rewrite !forallb_app.
    destruct (needs_default c), (needs_builder_struct c), (s_is_ref_counted (c_args c)),
      (existsb (fun f : field => is_sync c f && is_lazy c f) (all_fields c)), (s_is_serde (c_args c));
      cbn [forallb app andb]; rewrite ?forallb_app;
      destruct (s_needs_deserialize (c_args c)), (s_needs_serialize (c_args c)), (from_shadow_emitted c), (into_shadow_emitted c);
      destruct (serde_default_arg (s_serde (c_args c))) as [[? [] ?]|]; reflexivity. }
  rewrite forallb_forall in E. specialize (E o H). destruct (o_printed o); auto; cbn [orb] in E;
    apply negb_true_iff in E; rewrite <- not_true_iff_false in E; destruct E; apply existsb_exists;
    exists (o_item o); split; auto using String.eqb_refl.
Qed.
Lemma serde_item_right : forall c gs o, In o (generic_occs c) -> In (o_item o) serde_items ->
  (right gs o <-> match o_place o with
                  | AtUse => Forall bare (map param_of gs)
                  | AtImpl => Forall no_default (map param_of gs)
                  | AtStruct => True
                  end).
Proof.
  intros c gs o H I. pose proof (all_harmless c) as A. rewrite forallb_forall in A.
  rewrite (right_iff gs o (A o H)). unfold asks. rewrite (serde_items_as_declared c o H I). destruct (o_place o); tauto.
Qed.
