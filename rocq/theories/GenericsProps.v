(** C50: generic parameters in the generated items. *)
From Coq Require Import List Bool String.
From Verif Require Import ArgsModel CtxModel ArgsFixtures ArgsProps StructGen SerdeModel TokenSpec TokenModel
  GenericsSpec GenericsModel GenericsProofs.
Import ListNotations.
Open Scope string_scope.
Open Scope list_scope.

(** Parameters declared by their names alone (bounds in a where clause) come out right in
    every generated item. *)
Theorem C50_bare_partial : forall c gs, Forall bare (map param_of gs) ->
  Forall (right gs) (generic_occs c).
Proof.
  intros c gs H. apply all_right_iff. split; intros _; [exact H|]. now apply bare_no_default.
Qed.
(** Exactly when every item is right: bounds are refused by serde and by the builder of a
    struct with rc, defaults of parameters by any builder. *)
Theorem C50_exact : forall c gs,
  Forall (right gs) (generic_occs c) <->
  (names_needed c -> Forall bare (map param_of gs)) /\
  (needs_builder_struct c = true -> Forall no_default (map param_of gs)).
Proof. exact all_right_iff. Qed.
(** Each place in what serde needs is right exactly when the parameters are bare, or
    without defaults in the head of an impl. *)
Theorem C50_serde_places : forall c gs o, In o (generic_occs c) -> In (o_item o) serde_items ->
  (right gs o <-> match o_place o with
                  | AtUse => Forall bare (map param_of gs)
                  | AtImpl => Forall no_default (map param_of gs)
                  | AtStruct => True
                  end).
Proof. exact serde_item_right. Qed.
(** Without serde and without a builder everything is right for all parameters. *)
Theorem C50_no_builder_no_serde : forall c gs,
  needs_builder_struct c = false -> s_is_serde (c_args c) = false ->
  Forall (right gs) (generic_occs c).
Proof.
  intros c gs H1 H2. apply all_right_iff. split; [|congruence].
  intros [[E _]|[E _]]; congruence.
Qed.

Definition lt_a : gparam := mk_gparam GLifetime "a" [] [].
Definition ty_t : gparam := mk_gparam GType "T" [] [].
Definition ty_bound : gparam := mk_gparam GType "T" [TIdent "Clone"] [].
Definition ty_default : gparam := mk_gparam GType "T" [] [TIdent "u8"].
Definition const_n : gparam := mk_gparam GConst "N" [TIdent "usize"] [].
Definition all_on : sctx := ctx_of (put_s_rc h_on (put_s_builder bld_on (put_s_serde serde_on bare_sargs))) [fa].
Example C50_bare_case : Forall bare (map param_of [lt_a; ty_t]) /\ List.length (generic_occs all_on) = 26 /\
  text (print_generics PGenerics [lt_a; ty_t])
    = [APunct "<"; APunct "'"; AIdent "a"; APunct ","; AIdent "T"; APunct ">"].
Proof. split; [repeat constructor|]. split; reflexivity. Qed.
Example C50_no_builder_case :
  needs_builder_struct (ctx_of bare_sargs [fa]) = false /\ s_is_serde (c_args (ctx_of bare_sargs [fa])) = false /\
  List.length (generic_occs (ctx_of bare_sargs [fa])) = 7.
Proof. repeat split. Qed.

Example C50_places_case :
  map (fun o => (o_item o, o_place o))
    (filter (fun o => existsb (String.eqb (o_item o)) serde_items)
       (generic_occs (ctx_of (put_s_serde serde_on bare_sargs) [fa])))
  = [("serde(from)", AtUse); ("serde(into)", AtUse)] ++
    map (pair "impl Default for shadow") [AtImpl; AtUse] ++
    map (pair "impl From<shadow>") [AtImpl; AtUse; AtUse; AtUse] ++
    map (pair "impl From<struct> for shadow") [AtImpl; AtUse; AtUse; AtUse].
Proof. reflexivity. Qed.

(** impl<T: Clone> From<Shadow<T: Clone>> for Foo<T: Clone>. *)
Theorem C50_serde_refuted : exists c o, s_is_serde (c_args c) = true /\ In o (generic_occs c) /\
  o_item o = "impl From<shadow>" /\ ~ right [ty_bound] o /\ ~ right [const_n] o.
Proof.
  exists (ctx_of (put_s_serde serde_on bare_sargs) [fa]), (mk_occ "impl From<shadow>" AtUse PGenerics).
  split; [reflexivity|]. split; [vm_compute; tauto|]. split; [reflexivity|]. split; vm_compute; discriminate.
Qed.
(** struct FooBuilder<T: Clone> { myself: Weak<Foo<T: Clone>>, ... }. *)
Theorem C50_rc_builder_refuted : exists c o, s_is_serde (c_args c) = false /\ In o (generic_occs c) /\
  o_item o = "struct builder" /\ ~ right [ty_bound] o.
Proof.
  exists (ctx_of (put_s_rc h_on (put_s_builder bld_on bare_sargs)) [fa]), (mk_occ "struct builder" AtUse PGenerics).
  split; [reflexivity|]. split; [vm_compute; tauto|]. split; [reflexivity|]. vm_compute; discriminate.
Qed.
(** impl<T = u8> FooBuilder<T>. *)
Theorem C50_builder_default_refuted : exists c o, s_is_serde (c_args c) = false /\
  s_is_ref_counted (c_args c) = false /\ In o (generic_occs c) /\
  o_item o = "impl builder" /\ right [ty_bound] o /\ ~ right [ty_default] o.
Proof.
  exists (ctx_of (put_s_builder bld_on bare_sargs) [fa]), (mk_occ "impl builder" AtImpl PGenerics).
  split; [reflexivity|]. split; [reflexivity|]. split; [vm_compute; tauto|]. split; [reflexivity|].
  split; [reflexivity|]. vm_compute; discriminate.
Qed.

Print Assumptions C50_bare_partial.
Print Assumptions C50_exact.
Print Assumptions C50_serde_places.
Print Assumptions C50_no_builder_no_serde.
Print Assumptions C50_serde_refuted.
Print Assumptions C50_rc_builder_refuted.
Print Assumptions C50_builder_default_refuted.
