(** C69: attributes given by the user end up on the documented items. *)
From Coq Require Import List Bool String.
From Verif Require Import ArgsModel CtxModel ArgsFixtures ArgsProps RustAst CommonGen StructGen CodegenProps
  AttrModel AttrSpec AttrProofs.
Import ListNotations.
Open Scope string_scope.

(** Full statement: every emitted item carries the documented attributes, in order, and
    no others.  Missing: get_mut of a sync field, the serde shadow struct and its
    fields; see below. *)
Theorem C69_placement_partial : forall c p l, In (p, l) (placed c) -> plain_place c p ->
  l = documented c p.
Proof. exact placed_documented. Qed.
(** get_mut of a sync field carries the attributes of get. *)
Theorem C69_sync_get_mut : forall c f l, In (AtMethod f KAccessorMut, l) (placed c) ->
  is_sync c f = true -> l = documented c (AtMethod f KAccessor).
Proof. exact sync_get_mut. Qed.

(** [#[fxstruct(attributes(a), attributes_impl(b), get(attributes_fn(g)), builder(attributes_fn(s)))]]
    over a field [x] with [#[doc]] and [get], [attributes_fn(m)], [set],
    [builder(attributes(q))], and a field [y] with a getter of its own. *)
Definition fn_base (l : list string) : helper := mk_helper false None (Some l) None None.
Definition full_s : sargs :=
  put_s_attributes (Some ["a"]) (put_s_attributes_impl (Some ["b"])
    (put_s_accessor (Some (mk_accessor (fn_base ["g"]) false false false))
      (put_s_builder (Some (bld_with (fn_base ["s"]))) bare_sargs))).
Definition x_field : field :=
  put_f_attrs ["doc"] (put_f_attributes_fn (Some ["m"]) (put_f_setter set_on
    (put_f_builder (Some (mk_builder helper_default (Some ["q"]) None None None None None None)) fa))).
Definition y_field : field :=
  put_f_ident "y" (put_f_accessor (Some (mk_accessor (fn_base ["h"; "i"]) false false false)) fa).
Example C69_placement_case :
  let z := put_f_ident "z" fa in
  placed (ctx_of full_s [x_field; y_field; z])
  = [(AtStructImpl, ["b"]); (AtBuilderStruct, ["a"]); (AtBuilderImpl, ["b"]);
     (AtField x_field, ["doc"]); (AtMethod x_field KAccessor, ["m"]); (AtMethod x_field KSetter, ["m"]);
     (AtBuilderField x_field, ["q"]); (AtBuilderSetter x_field, ["m"]);
     (AtField y_field, []); (AtMethod y_field KAccessor, ["h"; "i"]); (AtBuilderField y_field, []);
     (AtBuilderSetter y_field, ["s"]);
     (AtField z, []); (AtMethod z KAccessor, ["g"]); (AtBuilderField z, []); (AtBuilderSetter z, ["s"])].
Proof. vm_compute. reflexivity. Qed.

(** [sync], [get(attributes_fn(g))], [get_mut(attributes_fn(w))]: get_mut gets g. *)
Definition two_fns : field :=
  put_f_accessor (Some (mk_accessor (fn_base ["g"]) false false false))
    (put_f_accessor_mut (Some (fn_base ["w"])) fa).
Theorem C69_sync_get_mut_refuted : exists c f l, no_errors c f /\
  In (AtMethod f KAccessorMut, l) (placed c) /\ l <> documented c (AtMethod f KAccessorMut).
Proof.
  exists (ctx_of (put_s_mode_sync (Some true) bare_sargs) [two_fns]), two_fns, ["g"].
  split; [split; reflexivity|]. split; [vm_compute; auto 8|]. vm_compute. discriminate.
Qed.
Example C69_plain_get_mut_case :
  In (AtMethod two_fns KAccessorMut, ["w"]) (placed (ctx_of bare_sargs [two_fns])).
Proof. vm_compute. auto 8. Qed.

(** ** The serde shadow *)
(** The shadow struct carries serde(attributes(..)), and [attributes] of the struct never
    replaces it. *)
Theorem C69_shadow_struct : forall c l, In (AtShadowStruct, l) (placed c) ->
  l = nearest [match s_serde (c_args c) with Some h => se_attributes h | None => None end].
Proof. exact shadow_struct_is. Qed.
(** So it is as documented exactly when serde has attributes or the struct has none. *)
Theorem C69_shadow_struct_partial : forall c l, In (AtShadowStruct, l) (placed c) ->
  (l = documented c AtShadowStruct <->
   (exists h a, s_serde (c_args c) = Some h /\ se_attributes h = Some a) \/
   nearest [s_attributes (c_args c)] = []).
Proof.
  intros c l H. rewrite (shadow_struct_is c l H). cbn.
  destruct (s_serde (c_args c)) as [h|]; [destruct (se_attributes h) as [a|] eqn:A|].
  - split; [left; exists h, a; auto|reflexivity].
  - split; [auto|]. intros [(h' & a & E & K)| ->]; [|reflexivity]. congruence.
  - split; [auto|]. intros [(h' & a & E & K)| ->]; [|reflexivity]. congruence.
Qed.
(** [#[fxstruct(serde, attributes(allow(dead_code)))]]. *)
Definition fallback_s : sargs := put_s_serde serde_on (put_s_attributes (Some ["allow(dead_code)"]) bare_sargs).
Theorem C69_shadow_struct_refuted : exists c l, sargs_errors (c_args c) = [] /\
  In (AtShadowStruct, l) (placed c) /\ l <> documented c AtShadowStruct.
Proof.
  exists (ctx_of fallback_s [fa]), []. split; [reflexivity|]. split; [vm_compute; auto|].
  vm_compute. discriminate.
Qed.

(** A shadow field carries its own serde(attributes(..)), or else [attributes] of the
    struct, then those of the field's attributes that are let through. *)
Theorem C69_shadow_field : forall c f l, In (AtShadowField f, l) (placed c) ->
  l = (nearest [match f_serde f with Some h => se_attributes h | None => None end;
                s_attributes (c_args c)]
       ++ match list_used c f with
          | Some ps => filter (fun x => is_named x "serde" || existsb (is_named x) ps) (f_attrs f)
          | None => f_attrs f
          end)%list.
Proof. exact shadow_field_exact. Qed.
(** Full statement: for all c and f.  Missing: fields without attributes of their own in
    a struct that has [attributes]; no list of attributes to forward, or one at the
    struct only when the field mentions serde. *)
Theorem C69_shadow_field_partial : forall c f l, In (AtShadowField f, l) (placed c) ->
  (exists h a, f_serde f = Some h /\ se_attributes h = Some a) \/ s_attributes (c_args c) = None ->
  (exists h ps, or_else (f_serde f) (s_serde (c_args c)) = Some h /\ se_forward_attrs h = Some ps) ->
  l = documented c (AtShadowField f).
Proof.
  intros c f l H A (h & ps & E & F). rewrite (shadow_field_exact c f l H). unfold documented.
  f_equal.
  - destruct A as [(h' & a & -> & ->)| ->]; [reflexivity|].
    destruct (f_serde f) as [h'|]; [|reflexivity]. destruct (se_attributes h'); reflexivity.
  - unfold list_used, forwarded. destruct (f_serde f) as [h'|]; cbn in E.
    + injection E as ->. rewrite F. reflexivity.
    + rewrite E, F. reflexivity.
Qed.
Definition fwd (a fw : option (list string)) : option serde :=
  Some (mk_serde false None None a None None fw None None).
Definition many_attrs : field := put_f_attrs ["doc = x"; "serde(alias)"; "a1(y)"] fa.
Example C69_shadow_field_case :
  let s := put_s_serde (fwd (Some ["s"]) (Some ["a1"])) bare_sargs in
  let f := put_f_serde (fwd (Some ["own"]) (Some ["doc"])) many_attrs in
  placed (ctx_of s [many_attrs; f])
  = [(AtStructImpl, []); (AtShadowStruct, ["s"]);
     (AtField many_attrs, ["doc = x"; "serde(alias)"; "a1(y)"]);
     (AtShadowField many_attrs, ["serde(alias)"; "a1(y)"]);
     (AtField f, ["doc = x"; "serde(alias)"; "a1(y)"]);
     (AtShadowField f, ["own"; "doc = x"; "serde(alias)"])].
Proof. vm_compute. reflexivity. Qed.

(** Three ways to fail: [attributes] of the struct lands on every shadow field; without a
    list everything is forwarded; [serde] at a field forgets the list of the struct. *)
Theorem C69_shadow_field_refuted :
  (exists c f l, no_errors c f /\ In (AtShadowField f, l) (placed c) /\
     In "allow(dead_code)" l /\ documented c (AtShadowField f) = []) /\
  (exists c f l, no_errors c f /\ In (AtShadowField f, l) (placed c) /\
     list_used c f = None /\ In "doc = x" l /\
     ~ In "doc = x" (documented c (AtShadowField f))) /\
  (exists c f l, no_errors c f /\ In (AtShadowField f, l) (placed c) /\
     forwarded c f = ["a1"] /\ In "doc = x" l /\
     ~ In "doc = x" (documented c (AtShadowField f))).
Proof.
  repeat apply conj.
  - exists (ctx_of fallback_s [fa]), fa, ["allow(dead_code)"].
    split; [split; reflexivity|]. split; [vm_compute; auto|]. split; [left|]; reflexivity.
  - exists (ctx_of (put_s_serde serde_on bare_sargs) [many_attrs]), many_attrs,
      ["doc = x"; "serde(alias)"; "a1(y)"].
    split; [split; reflexivity|]. split; [vm_compute; auto|]. split; [reflexivity|].
    split; [left; reflexivity|]. vm_compute. intros [E|[]]. discriminate E.
  - pose (f := put_f_serde (fwd None None) many_attrs).
    exists (ctx_of (put_s_serde (fwd None (Some ["a1"])) bare_sargs) [f]), f,
      ["doc = x"; "serde(alias)"; "a1(y)"].
    split; [split; reflexivity|]. split; [vm_compute; auto|]. split; [reflexivity|].
    split; [left; reflexivity|]. vm_compute. intros [E|[E|[]]]; discriminate E.
Qed.

(** No item of the list is forgotten: each field keeps its declaration and its
    attributes, and gets a shadow field when it takes part in serde; the builder and the
    shadow exist when they are asked for. *)
Theorem C69_present : forall c,
  (exists l, In (AtStructImpl, l) (placed c)) /\
  (forall f, In f (all_fields c) -> In (AtField f, f_attrs f) (placed c)) /\
  (forall f ms m, In f (all_fields c) -> field_methods c f = GOk ms -> In m ms ->
     exists l, In (AtMethod f (m_kind m), l) (placed c)) /\
  (needs_builder_struct c = true ->
     (exists l, In (AtBuilderStruct, l) (placed c)) /\ (exists l, In (AtBuilderImpl, l) (placed c)) /\
     (forall f, In f (builder_input c) -> exists l, In (AtBuilderField f, l) (placed c))) /\
  (s_is_serde (c_args c) = true ->
     (exists l, In (AtShadowStruct, l) (placed c)) /\
     forall f, In f (shadow_input c) -> exists l, In (AtShadowField f, l) (placed c)).
Proof. exact placed_present. Qed.

Print Assumptions C69_placement_partial.
Print Assumptions C69_sync_get_mut.
Print Assumptions C69_sync_get_mut_refuted.
Print Assumptions C69_shadow_struct.
Print Assumptions C69_shadow_struct_partial.
Print Assumptions C69_shadow_struct_refuted.
Print Assumptions C69_shadow_field.
Print Assumptions C69_shadow_field_partial.
Print Assumptions C69_shadow_field_refuted.
Print Assumptions C69_present.
