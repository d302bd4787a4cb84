(** C90: the names in the generated code mean what they should where the struct stands. *)
From Coq Require Import List Bool String.
From Verif Require Import ArgsModel CtxModel RustAst ArgsSpec ArgsFixtures ArgsProps CommonGen StructGen NameModel MacroModel
  MacroSpec MacroProps HygieneSpec HygieneModel HygieneWhen HygieneMain.
Import ListNotations.
Open Scope string_scope.

(** Full statement: whatever stands around the struct, every name in the generated code
    means what it is meant to, and the words of the user in it mean what they mean at the
    struct.  Missing: surroundings that take one of the names in a fixed list; refuted below.
    Here: all structs and all surroundings that leave those alone. *)
Theorem C90_reserved_partial : forall c w, leaves_alone c w ->
  forall p, In p (pieces c w) -> sound (made c) w p.
Proof. exact alone_sound. Qed.
Print Assumptions C90_reserved_partial.

(** When exactly: the names counted on stand for what they should, the generics added are
    none of the struct's, and no word of the user is covered. *)
Theorem C90_exact : forall path assignment c w, expand path assignment c = GOk [] ->
  known_lifetimes w -> free_locals w ->
  ((forall p, In p (pieces c w) -> sound (made c) w p) <->
   (forall n m, asks c n m -> mean (made c) w [] n = m)
   /\ (forall n, opens c n -> ~ In n (w_params w) /\ ~ In n (w_constants w))
   /\ (forall n, ~ covers c w n)).
Proof.
  intros path assignment c w E L F. split.
  - apply sound_only; [exact (accepted_methods _ _ _ E)|exact (accepted_build _ _ _ E)].
  - intros (A & O & C). exact (sound_if c w L F A O C).
Qed.
Print Assumptions C90_exact.

(** For the names of the prelude: exactly when nobody takes them. *)
Theorem C90_std : forall c w n, In n std -> (mean (made c) w [] n = Std <->
  ~ In n (w_params w) /\ ~ In n (w_items w) /\ ~ In n (made c) /\ ~ In n (w_globs w)).
Proof. exact std_exact. Qed.
Print Assumptions C90_std.

(** ** Cases *)
(** [#[fxstruct(sync, rc, builder(into))] pub struct Foo<'a, T>] with an async lazy field
    that may fail, an optional one with reader, writer and setter, and one with a default
    that is copied. *)
Definition n_fields : list field :=
  [put_f_mode_async (Some true) (put_f_lazy h_on (put_f_fallible (fall_on "E") (put_f_accessor get_clone (bare_field "one" "&'a T"))));
   put_f_optional (Some true) (put_f_reader h_on (put_f_writer h_on (put_f_setter set_on (put_f_predicate h_on (bare_field "two" "T")))));
   put_f_default (def_val "LIMIT") (put_f_accessor get_copy (bare_field "three" "u8"))].
Definition n_ctx : sctx := ctx_of (put_s_mode_sync (Some true) (put_s_rc h_on (put_s_builder (Some (mk_builder helper_default None None (Some true) None None None None)) bare_sargs))) n_fields.
Definition n_world : surroundings :=
  mk_surroundings [(Lifetimes, "'a"); (Types, "T")] [(Values, "LIMIT"); (Types, "E"); (Types, "Bar")] [(Values, "LIMIT")]
    [(Types, "HashMap")]
    (fun f => if String.eqb f "one" then [(Lifetimes, "'a"); (Types, "T")]
              else if String.eqb f "two" then [(Types, "T")] else [(Types, "u8")])
    (fun f => if String.eqb f "three" then [(Values, "LIMIT")] else []) [(Types, "E")].

Ltac each := repeat match goal with H : _ \/ _ |- _ => destruct H | H : False |- _ => destruct H end; subst.
Ltac away := let H := fresh in intro H; vm_compute in H; each; discriminate.
Lemma n_alone : leaves_alone n_ctx n_world.
Proof.
  split.
  - intros n I. cbn in I. each; (split; [|split; [|split]]); away.
  - intros n I. vm_compute in I. each; split; away.
  - intros n I. cbn in I. each; split; away.
  - intros n I. unfold n_world, w_type, w_default, w_error.
    split; [intro f; split|]; repeat destruct (String.eqb _ _); intro J; vm_compute in I, J; each; discriminate.
  - intros n E. discriminate E.
Qed.
Example C90_reserved_case : leaves_alone n_ctx n_world /\ expand yes no n_ctx = GOk []
  /\ List.length (pieces n_ctx n_world) = 76.
Proof. split; [exact n_alone|]. split; vm_compute; reflexivity. Qed.

(** The same struct: what it counts on, what it adds, and that nothing is covered. *)
Lemma n_lifetimes : known_lifetimes n_world.
Proof.
  intros n L [[f I]|I].
  - unfold n_world, w_type in I. repeat destruct (String.eqb _ _); cbn in I; each; try discriminate L; left; cbn; auto.
  - cbn in I. each. discriminate L.
Qed.
Lemma n_locals : free_locals n_world.
Proof. intros n I. cbn in I. each; split; away. Qed.
Example C90_exact_case : expand yes no n_ctx = GOk [] /\ known_lifetimes n_world /\ free_locals n_world
  /\ asks n_ctx (Types, "FooBuilder") Generated /\ asks n_ctx (Types, "Send") Std /\ asks n_ctx (Types, "Copy") Std
  /\ opens n_ctx fx_reader /\ opens n_ctx fx_into
  /\ (forall n m, asks n_ctx n m -> mean (made n_ctx) n_world [] n = m)
  /\ (forall n, ~ covers n_ctx n_world n).
Proof.
  assert (E : expand yes no n_ctx = GOk []) by (vm_compute; reflexivity).
  pose proof (proj1 (C90_exact yes no n_ctx n_world E n_lifetimes n_locals) (C90_reserved_partial _ _ n_alone)) as (A & _ & C).
  split; [exact E|]. split; [exact n_lifetimes|]. split; [exact n_locals|].
  assert (M : forall f, In f n_fields -> has_methods n_ctx f).
  { intros f I. split; [right; exact I|]. cbn in I. each; reflexivity. }
  split; [constructor; vm_compute; auto|].
  split; [eapply asks_send; [apply M; left; reflexivity| | |]; vm_compute; reflexivity|].
  split; [eapply asks_copy; [right; right; right; left; reflexivity| |]; vm_compute; reflexivity|].
  split; [eapply opens_reader; [apply M; right; left; reflexivity| | |]; vm_compute; reflexivity|].
  split; [eapply opens_into, converts_build; [|apply M; right; left; reflexivity| |]; vm_compute; reflexivity|].
  split; [exact A|exact C].
Qed.
Example C90_std_case : In (Values, "Ok") std /\ mean (made n_ctx) n_world [] (Values, "Ok") = Std.
Proof. split; [cbn; auto 10|vm_compute; reflexivity]. Qed.

(** ** Refuted *)
Definition quiet_world (params items constants globs : list name) (ty def : list name) : surroundings :=
  mk_surroundings params items constants globs (fun _ => ty) (fun _ => def) [].
Definition fails (c : sctx) (w : surroundings) : Prop :=
  expand yes no c = GOk [] /\ ~ forall p, In p (pieces c w) -> sound (made c) w p.
Ltac fails := split; [vm_compute; reflexivity|apply not_all_sound; vm_compute; reflexivity].

(** An item called like the trait: every struct is lost, whatever its arguments. *)
Theorem C90_trait_refuted : forall c w, In (Types, "FXStruct") (w_items w) ->
  exists p, In p (pieces c w) /\ ~ sound (made c) w p.
Proof. exact trait_taken. Qed.
Print Assumptions C90_trait_refuted.
Example C90_trait_case :
  In (Types, "FXStruct") (w_items (quiet_world [] [(Types, "FXStruct")] [] [] [] []))
  /\ In (Says [] (Types, "FXStruct") Imported) (pieces (ctx_of bare_sargs [fa]) (quiet_world [] [(Types, "FXStruct")] [] [] [] [])).
Proof. split; vm_compute; auto. Qed.

(** [use Choice::*] for an enum with a variant [None], and a builder; the same struct
    is fine without the import. *)
Theorem C90_prelude_refuted :
  fails (ctx_of (put_s_builder bld_on bare_sargs) [fa]) (quiet_world [] [] [] [(Values, "None")] [] [])
  /\ all_sound (ctx_of (put_s_builder bld_on bare_sargs) [fa]) (quiet_world [] [] [] [] [] []).
Proof. split; [fails|apply all_sound_dec; vm_compute; reflexivity]. Qed.
Print Assumptions C90_prelude_refuted.

(** [struct Foo<'fx_reader_lifetime>] with a field that is read under a lock; a plain
    getter is fine. *)
Theorem C90_lifetime_refuted :
  fails (ctx_of (put_s_mode_sync (Some true) bare_sargs) [put_f_optional (Some true) (put_f_reader h_on fa)])
    (quiet_world [fx_reader] [] [] [] [fx_reader] [])
  /\ all_sound (ctx_of bare_sargs [put_f_accessor get_on fa]) (quiet_world [fx_reader] [] [] [] [fx_reader] []).
Proof. split; [fails|apply all_sound_dec; vm_compute; reflexivity]. Qed.
Print Assumptions C90_lifetime_refuted.

(** A field of a type called [FXVALINTO] with [set(into)]: the setter takes the type for
    its own parameter. *)
Theorem C90_into_refuted :
  fails (ctx_of bare_sargs [put_f_setter (Some (mk_setter helper_default (Some true))) fa])
    (quiet_world [] [fx_into] [] [] [fx_into] [])
  /\ all_sound (ctx_of bare_sargs [put_f_setter set_on fa]) (quiet_world [] [fx_into] [] [] [fx_into] []).
Proof. split; [fails|apply all_sound_dec; vm_compute; reflexivity]. Qed.
Print Assumptions C90_into_refuted.

(** [#[fxstruct(rc, builder)]] and [#[fieldx(default(me()))]]: in build() the function
    [me] of the user is hidden by the variable of the closure; without rc it is not. *)
Theorem C90_default_refuted :
  fails (ctx_of (put_s_rc h_on (put_s_builder bld_on bare_sargs)) [put_f_default (def_val "me()") fa])
    (quiet_world [] [(Values, "me")] [] [] [] [(Values, "me")])
  /\ all_sound (ctx_of (put_s_builder bld_on bare_sargs) [put_f_default (def_val "me()") fa])
       (quiet_world [] [(Values, "me")] [] [] [] [(Values, "me")]).
Proof. split; [fails|apply all_sound_dec; vm_compute; reflexivity]. Qed.
Print Assumptions C90_default_refuted.

(** [struct Foo<FooBuilder>] with a builder; a struct called [Default] that has one;
    [serde] where the derive macros are not imported. *)
Theorem C90_names_refuted :
  fails (ctx_of (put_s_builder bld_on bare_sargs) [fa]) (quiet_world [(Types, "FooBuilder")] [] [] [] [] [])
  /\ fails (mk_sctx "Default" "pub" (put_s_default (Some true) bare_sargs) [fa]) (quiet_world [] [] [] [] [] [])
  /\ fails (ctx_of (put_s_serde serde_on bare_sargs) [fa]) (quiet_world [] [] [] [] [] [])
  /\ all_sound (ctx_of (put_s_serde serde_on bare_sargs) [fa])
       (quiet_world [] [(Macros, "Serialize"); (Macros, "Deserialize")] [] [] [] []).
Proof. split; [fails|]. split; [fails|]. split; [fails|apply all_sound_dec; vm_compute; reflexivity]. Qed.
Print Assumptions C90_names_refuted.
