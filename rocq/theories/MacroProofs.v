(** Lemmas about the macro as a whole. *)
From Coq Require Import List Bool String Ascii Arith Lia.
From Verif Require Import ArgsModel CtxModel RustAst TokenModel CommonGen PlainGen SyncGen StructGen
  NameModel MacroModel MacroSpec NameProofs.
Import ListNotations.
Open Scope string_scope.

(** ** Equal unless there is a panic *)
Definition sim {A} (r r' : gres A) : Prop := r = r' \/ exists m, r = GPanic m.
Lemma sim_refl : forall A (r : gres A), sim r r.
Proof. left. reflexivity. Qed.
Lemma sim_bind : forall A B (r r' : gres A) (k k' : A -> gres B),
  sim r r' -> (forall a, sim (k a) (k' a)) -> sim (gbind r k) (gbind r' k').
Proof.
  intros A B r r' k k' [->|[m ->]] K; [|right; exists m; reflexivity].
  destruct r'; simpl; [apply K|apply sim_refl|apply sim_refl].
Qed.
Lemma sim_skip : forall A B (r : gres A) (k : A -> gres B) k',
  made r -> (forall a, sim (k a) k') -> sim (gbind r k) k'.
Proof. intros A B r k k' [[a ->]|[m ->]] K; simpl; [apply K|right; eauto]. Qed.
Lemma sim_ok : forall A (r r' : gres A), sim r r' -> (forall m, r <> GPanic m) -> r = r'.
Proof. intros A r r' [E|[m E]] N; [exact E|destruct (N m E)]. Qed.

Lemma made_done : forall A (r : gres A), made r -> made (gdone r).
Proof. intros. apply made_bind; [assumption|intros; apply made_ok]. Qed.
Lemma made_when : forall b r, made r -> made (gwhen b r).
Proof. intros [] r M; [exact M|apply made_ok]. Qed.
Lemma made_unwrap : forall A (o : option A), made (gunwrap o).
Proof. intros A [a|]; [left|right]; unfold gunwrap; eauto. Qed.

Section One.
Variable c : sctx.
Variable f : field.
Let g := cfg_of c f.

Lemma made_named : forall k, made (named c f k).
Proof. intros. apply made_done, made_helper. Qed.
Lemma made_self : made (self_ref c).
Proof.
  apply made_when, made_bind; [apply made_myself|intros]. apply made_done, made_unwrap.
Qed.
Lemma made_lazy_builder : made (lazy_builder c f).
Proof. unfold lazy_builder. destruct (g_async _); [apply made_done, made_wrapper|apply made_named]. Qed.
Lemma made_lazy_initializer : made (plain_lazy_initializer c f).
Proof. apply made_bind; [apply made_named|intros; apply made_self]. Qed.

Ltac skips := repeat (apply sim_skip; [first [apply made_named | apply made_self | apply made_lazy_builder
  | apply made_when, made_self | apply made_when, made_lazy_initializer | apply made_lazy_initializer
  | apply made_unwrap | apply made_done, made_wrapper | apply made_wrapper]|intros]).

Lemma plain_get_sim : sim (plain_get c f) (plain_accessor g).
Proof.
  unfold plain_get. fold g. destruct (g_get g) eqn:E.
  - skips. apply sim_refl.
  - unfold plain_accessor. rewrite E. apply sim_refl.
Qed.
Lemma plain_get_mut_sim : sim (plain_get_mut c f) (plain_accessor_mut g).
Proof.
  unfold plain_get_mut. fold g. destruct (g_get_mut g) eqn:E.
  - skips. apply sim_refl.
  - unfold plain_accessor_mut. rewrite E. apply sim_refl.
Qed.
Lemma if_named : forall (b : bool) k (r : gres (list mdecl)), (b = false -> r = GOk []) ->
  sim (if b then do _n <- named c f k; r else GOk []) r.
Proof. intros [] k r H; [skips; apply sim_refl|rewrite H by reflexivity; apply sim_refl]. Qed.

Lemma plain_methods_sim : sim (plain_field_methods c f) (plain_methods g).
Proof.
  unfold plain_field_methods, plain_methods. fold g. destruct (g_skip g); [apply sim_refl|].
  apply sim_bind; [apply plain_get_sim|intros a]. apply sim_bind; [apply plain_get_mut_sim|intros am].
  apply sim_bind; [apply if_named; intros E; unfold plain_setter; rewrite E; reflexivity|intros s].
  apply sim_bind; [apply if_named; intros E; unfold plain_clearer; rewrite E; reflexivity|intros cl].
  apply sim_bind; [apply if_named; intros E; unfold plain_predicate; rewrite E; reflexivity|intros p].
  apply sim_refl.
Qed.

Lemma sync_read_sim : forall k, sim (sync_read c f k) (reader_method g k).
Proof. intros. unfold sync_read. skips. apply sim_refl. Qed.
Lemma sync_get_sim : sim (sync_get c f) (sync_accessor g).
Proof.
  unfold sync_get. fold g. destruct (g_get g) eqn:E; [|unfold sync_accessor; rewrite E; apply sim_refl].
  skips. destruct (g_clone g || g_copy g) eqn:CC; [skips; apply sim_refl|].
  destruct (g_lazy g || g_lock g) eqn:LL; [|apply sim_refl].
  unfold sync_accessor. rewrite E, CC, LL. apply sync_read_sim.
Qed.
Lemma sync_get_mut_sim : sim (sync_get_mut c f) (sync_accessor_mut g).
Proof.
  unfold sync_get_mut. fold g. destruct (g_get_mut g) eqn:E; [|unfold sync_accessor_mut; rewrite E; apply sim_refl].
  skips. apply sim_refl.
Qed.
Lemma sync_methods_sim : sim (sync_field_methods c f) (sync_methods g).
Proof.
  unfold sync_field_methods, sync_methods. fold g. destruct (g_skip g); [apply sim_refl|].
  apply sim_bind; [apply sync_get_sim|intros a]. apply sim_bind; [apply sync_get_mut_sim|intros am].
  apply sim_bind; [unfold sync_reader; destruct (g_reader g); [apply sync_read_sim|apply sim_refl]|intros r].
  apply sim_bind; [apply if_named; intros E; unfold sync_writer; rewrite E; reflexivity|intros w].
  apply sim_bind; [apply if_named; intros E; unfold sync_setter; rewrite E; reflexivity|intros s].
  apply sim_bind; [apply if_named; intros E; unfold sync_clearer; rewrite E; reflexivity|intros cl].
  apply sim_bind; [apply if_named; intros E; unfold sync_predicate; rewrite E; reflexivity|intros p].
  apply sim_bind; [|intros; apply sim_refl].
  unfold sync_wrapper_fn. fold g. destruct (g_lazy g && g_async g); simpl; [|apply sim_refl].
  skips. apply sim_refl.
Qed.

Lemma sync_wrap_sim : forall r, sim (sync_wrap c f r) (sync_value_wrap g r).
Proof.
  intros r. unfold sync_wrap. fold g. destruct (g_lazy g) eqn:L; [|apply sim_refl].
  assert (E : sync_value_wrap g r = do _t <- sync_type g; sync_value_wrap g r).
  { unfold sync_value_wrap. rewrite L. destruct (sync_type g); reflexivity. }
  refine (eq_ind_r (fun x => sim _ x) _ E). apply sim_bind; [apply sim_refl|intros]. skips. apply sim_refl.
Qed.
Lemma sync_build_sim : sim (sync_build c f) (sync_builder_value g).
Proof.
  unfold sync_build. fold g.
  assert (E : sync_builder_value g = do _t <- sync_type g; sync_builder_value g).
  { unfold sync_builder_value. destruct (sync_type g); reflexivity. }
  refine (eq_ind_r (fun x => sim _ x) _ E). apply sim_bind; [apply sim_refl|intros]. skips. apply sim_refl.
Qed.

Lemma default_step_sim : sim (field_default_step c f) (field_default c f).
Proof.
  unfold field_default_step, field_default, sync_default_wrap. fold g.
  destruct (is_sync c f); [apply sync_wrap_sim|apply sim_refl].
Qed.
Lemma methods_step_sim : sim (field_methods_step c f) (field_methods c f).
Proof.
  unfold field_methods_step, field_methods. fold g.
  assert (R : forall r : gres (list mdecl), r = gbind r (fun l => GOk l)) by (intros []; reflexivity).
  rewrite (R (if is_sync c f then sync_methods g else plain_methods g)).
  apply sim_bind; [destruct (is_sync c f); [apply sync_methods_sim|apply plain_methods_sim]|intros l].
  apply sim_skip; [apply made_when, made_named|intros; apply sim_refl].
Qed.
Lemma build_step_sim : sim (build_step c f) (field_build_value c f).
Proof.
  unfold build_step, field_build_value. fold g. destruct (is_sync c f); [apply sync_build_sim|apply sim_refl].
Qed.
Lemma from_shadow_sim : sim (from_shadow_step c f) (field_from_shadow c f).
Proof.
  unfold from_shadow_step, field_from_shadow, sync_from_shadow. fold g.
  destruct (is_sync c f); [apply sync_wrap_sim|apply sim_refl].
Qed.
Lemma into_shadow_made : made (into_shadow_step c f).
Proof. apply made_when, made_lazy_initializer. Qed.

(** ** When a field is in error *)
Definition unknownb : bool := g_fallible g && negb (g_error_known g).
Definition badb : bool :=
  unknownb && (is_sync c f || negb (g_skip g) && g_lazy g && (g_get g || g_get_mut g)).

Lemma unknownb_spec : unknownb = true <-> error_unknown c f.
Proof.
  unfold unknownb, error_unknown, g, cfg_of. cbn [g_fallible g_error_known].
  unfold f_fallible_error, s_fallible_error.
  rewrite andb_true_iff, negb_true_iff. split.
  - intros [F E]. split; [exact F|]. split; intros x X; rewrite X in E.
    + destruct (fl_error x); [discriminate|reflexivity].
    + destruct (f_fallible f) as [y|]; [destruct (fl_error y); [discriminate|]|];
        simpl in E; destruct (fl_error x); try discriminate; reflexivity.
  - intros (F & A & B). split; [exact F|].
    destruct (f_fallible f) as [y|]; [rewrite (A y eq_refl)|]; simpl;
      (destruct (s_fallible (c_args c)) as [x|]; [rewrite (B x eq_refl)|]; reflexivity).
Qed.
Lemma badb_spec : badb = true <-> bad_field c f.
Proof.
  unfold badb, bad_field, error_needed. rewrite andb_true_iff, unknownb_spec.
  unfold g, cfg_of. cbn [g_skip g_lazy g_get g_get_mut]. unfold f_is_skipped.
  rewrite orb_true_iff, !andb_true_iff, negb_true_iff, orb_true_iff. tauto.
Qed.

Lemma frt : forall t, unknownb = false -> exists t', fallible_return_type g t = GOk t'.
Proof.
  intros t U. unfold fallible_return_type, unknownb in *. destruct (g_fallible g); [|eauto].
  destruct (g_error_known g); [eauto|discriminate].
Qed.
Lemma frt_bad : forall t, unknownb = true -> fallible_return_type g t = GErr unknown_type.
Proof.
  intros t U. unfold fallible_return_type, unknownb in *. destruct (g_fallible g); [|discriminate].
  destruct (g_error_known g); [discriminate|reflexivity].
Qed.
Lemma wto : wrapper_type_ok g = if unknownb then GErr unknown_type else GOk tt.
Proof. reflexivity. Qed.

Definition ok_or_unknown {A} (r : gres A) : Prop := (exists a, r = GOk a) \/ r = GErr unknown_type.
Lemma oou_bind : forall A B (r : gres A) (k : A -> gres B),
  ok_or_unknown r -> (forall a, ok_or_unknown (k a)) -> ok_or_unknown (gbind r k).
Proof. intros A B r k [[a ->]| ->] K; simpl; [apply K|right; reflexivity]. Qed.
Lemma oou_ok : forall A (a : A), ok_or_unknown (GOk a).
Proof. left; eauto. Qed.
Lemma oou_frt : forall t, ok_or_unknown (fallible_return_type g t).
Proof.
  intros t. unfold fallible_return_type.
  destruct (g_fallible g); [destruct (g_error_known g)|]; [left|right|left]; eauto.
Qed.
Lemma oou_wto : ok_or_unknown (wrapper_type_ok g).
Proof. rewrite wto. destruct unknownb; [right; reflexivity|apply oou_ok]. Qed.

Ltac oou := repeat first
  [ apply oou_ok | apply oou_frt | apply oou_wto | apply oou_bind; [|intros]
  | match goal with |- ok_or_unknown (if ?b then _ else _) => destruct b end ].

Lemma oou_plain_methods : ok_or_unknown (plain_methods g).
Proof.
  unfold plain_methods, plain_accessor, plain_accessor_mut, plain_setter, plain_clearer, plain_predicate. oou.
Qed.
Lemma oou_sync_methods : ok_or_unknown (sync_methods g).
Proof.
  unfold sync_methods, sync_accessor, sync_accessor_mut, sync_reader, sync_writer, sync_setter,
    sync_clearer, sync_predicate, reader_method. oou.
Qed.
Lemma oou_methods : ok_or_unknown (field_methods c f).
Proof. unfold field_methods. destruct (is_sync c f); [apply oou_sync_methods|apply oou_plain_methods]. Qed.
Lemma oou_type : ok_or_unknown (field_type c f).
Proof. unfold field_type, sync_type. fold g. destruct (is_sync c f); oou. Qed.

Lemma default_not_none : g_lazy g = false -> g_optional g = false -> forall b, field_default_value g b <> RNone.
Proof.
  intros L O b. unfold field_default_value. rewrite L, O. destruct (g_default g); discriminate.
Qed.
Lemma oou_sync_wrap : forall r, (g_lazy g = false -> g_optional g = false -> r <> RNone) ->
  ok_or_unknown (sync_value_wrap g r).
Proof.
  intros r N. unfold sync_value_wrap, sync_type, wrap_builder.
  destruct (g_lazy g) eqn:L; [oou|]. destruct (g_optional g) eqn:O; [oou|].
  destruct r; simpl; [destruct (N eq_refl eq_refl eq_refl)|oou|oou].
Qed.
Lemma plain_wrap_ok : forall r, (g_lazy g = false -> g_optional g = false -> r <> RNone) ->
  exists e, plain_value_wrap g r = GOk e.
Proof.
  intros r N. unfold plain_value_wrap. destruct r; [|eauto|].
  - destruct (g_lazy g); [eauto|]. destruct (g_optional g); [|destruct (N eq_refl eq_refl eq_refl)].
    destruct (g_inner_mut g); eauto.
  - destruct (g_lazy g); eauto.
Qed.
Lemma plain_default_ok : exists e, plain_default_wrap g = GOk e.
Proof. apply plain_wrap_ok. intros L O. apply default_not_none; assumption. Qed.
Lemma oou_default : ok_or_unknown (field_default c f).
Proof.
  unfold field_default. fold g. destruct (is_sync c f).
  - apply oou_sync_wrap. intros L O. apply default_not_none; assumption.
  - left. apply plain_default_ok.
Qed.
Lemma oou_plain_build : ok_or_unknown (plain_builder_value g).
Proof.
  unfold plain_builder_value. destruct plain_default_ok as (d & D). rewrite D. cbn [gbind].
  destruct (_ && _); [oou|]. destruct (g_lazy g) eqn:L; [oou|].
  destruct (_ && _); [oou|]. unfold value_for_set.
  assert (V : forall e, exists x, plain_value_wrap g (RVersatile e) = GOk x)
    by (intros; apply plain_wrap_ok; discriminate).
  assert (X : forall e, exists x, plain_value_wrap g (RExact e) = GOk x)
    by (intros; apply plain_wrap_ok; discriminate).
  destruct (g_has_default g); cbn [gbind].
  - destruct (V (EVar "field_manual_value")) as (x & ->). apply oou_ok.
  - destruct (_ && _); [destruct (X (EC0 PNone)) as (y & ->)|]; cbn [gbind].
    + destruct (V (EVar "field_manual_value")) as (x & ->). apply oou_ok.
    + left. apply V.
Qed.
Definition bareb : bool := is_sync c f && g_has_default g
  && match g_default g with None => true | _ => false end && (g_lazy g || g_optional g).
Lemma oou_sync_build : is_sync c f = true -> bareb = false -> ok_or_unknown (sync_builder_value g).
Proof.
  intros S B. unfold sync_builder_value. apply oou_bind; [unfold sync_type; oou|intros _].
  assert (W : forall r, r <> RNone -> ok_or_unknown (sync_value_wrap g r))
    by (intros; apply oou_sync_wrap; auto).
  assert (D : ok_or_unknown (sync_default_wrap g))
    by (apply oou_sync_wrap; intros L O; apply default_not_none; assumption).
  assert (VS : ok_or_unknown (value_for_set g (sync_value_wrap g) (sync_default_wrap g))).
  { unfold value_for_set. apply oou_bind.
    - destruct (g_has_default g); [apply oou_bind; [exact D|intros; oou]|].
      destruct (_ && _); [|oou]. apply oou_bind; [apply W; discriminate|intros; oou].
    - intros [x|]; [apply oou_bind; [apply W; discriminate|intros; oou]|apply W; discriminate]. }
  apply oou_bind.
  - destruct (g_has_default g) eqn:H; [|oou]. apply oou_bind; [|intros; oou].
    unfold bareb in B. rewrite S, H in B. unfold field_default_value, repr_expect.
    destruct (g_default g); [oou|]. cbv beta iota delta [andb] in B. rewrite B. oou.
  - intros o. destruct (_ && _).
    + apply oou_sync_wrap. intros L O. apply default_not_none; assumption.
    + destruct (g_lazy g); [unfold wrap_builder; oou|]. destruct (g_lock g); [exact VS|].
      destruct (g_optional g); [oou|exact VS].
Qed.
Lemma oou_build : bareb = false -> ok_or_unknown (field_build_value c f).
Proof.
  intros B. unfold field_build_value. fold g. destruct (is_sync c f) eqn:S.
  - apply oou_sync_build; assumption.
  - apply oou_plain_build.
Qed.
Lemma oou_from_shadow : ok_or_unknown (field_from_shadow c f).
Proof.
  unfold field_from_shadow. fold g. destruct (is_sync c f).
  - apply oou_sync_wrap. discriminate.
  - unfold plain_from_shadow. destruct plain_default_ok as (d & ->).
    destruct (plain_wrap_ok (RVersatile (EVar "v"))) as (v & ->); [discriminate|].
    destruct (serde_optional g); [apply oou_ok|]. destruct (g_inner_mut g); [|apply oou_ok].
    left. apply plain_wrap_ok. discriminate.
Qed.

(** Known error types: no error at all. *)
Lemma known_ok : forall A (r : gres A), unknownb = false -> ok_or_unknown r -> r <> GErr unknown_type ->
  exists a, r = GOk a.
Proof. intros A r _ [E|E] N; [exact E|destruct (N E)]. Qed.

Definition fine {A} (r : gres A) : Prop := exists a, r = GOk a.
Lemma fine_bind : forall A B (r : gres A) (k : A -> gres B),
  fine r -> (forall a, fine (k a)) -> fine (gbind r k).
Proof. intros A B r k [a ->] K. apply K. Qed.
Lemma fine_ok : forall A (a : A), fine (GOk a).
Proof. intros. eexists. reflexivity. Qed.
Lemma fine_wto : unknownb = false -> fine (wrapper_type_ok g).
Proof. intros U. rewrite wto, U. apply fine_ok. Qed.
Ltac fine U := repeat first
  [ apply fine_ok | apply (frt _ U) | apply (fine_wto U) | apply fine_bind; [|intros]
  | match goal with |- fine (if ?b then _ else _) => destruct b end ].

Lemma fine_methods : unknownb = false -> fine (field_methods c f).
Proof.
  intros U. unfold field_methods. fold g. destruct (is_sync c f).
  - unfold sync_methods, sync_accessor, sync_accessor_mut, sync_reader, sync_writer, sync_setter,
      sync_clearer, sync_predicate, reader_method. fine U.
  - unfold plain_methods, plain_accessor, plain_accessor_mut, plain_setter, plain_clearer, plain_predicate.
    fine U.
Qed.
Lemma fine_type : unknownb = false -> fine (field_type c f).
Proof. intros U. unfold field_type, sync_type. fold g. destruct (is_sync c f); fine U. Qed.
Lemma fine_sync_wrap : forall r, unknownb = false -> (g_lazy g = false -> g_optional g = false -> r <> RNone) ->
  fine (sync_value_wrap g r).
Proof.
  intros r U N. unfold sync_value_wrap, sync_type, wrap_builder.
  destruct (g_lazy g) eqn:L; [fine U|]. destruct (g_optional g) eqn:O; [fine U|].
  destruct r; simpl; [destruct (N eq_refl eq_refl eq_refl)|fine U|fine U].
Qed.
Lemma fine_default : unknownb = false -> fine (field_default c f).
Proof.
  intros U. unfold field_default. fold g. destruct (is_sync c f).
  - apply (fine_sync_wrap _ U). intros L O. apply default_not_none; assumption.
  - apply plain_default_ok.
Qed.
Lemma fine_from_shadow : unknownb = false -> fine (field_from_shadow c f).
Proof.
  intros U. destruct oou_from_shadow as [H|H]; [exact H|]. exfalso. revert H.
  unfold field_from_shadow. fold g. destruct (is_sync c f) eqn:S.
  - destruct (fine_sync_wrap (RExact (EFld "__shadow")) U) as (e & E); [discriminate|].
    unfold sync_from_shadow. rewrite E. discriminate.
  - destruct (plain_wrap_ok (RVersatile (EVar "v"))) as (v & V); [discriminate|].
    destruct (plain_wrap_ok (RVersatile (EFld "__shadow"))) as (w & W); [discriminate|].
    unfold plain_from_shadow. destruct plain_default_ok as (d & ->). rewrite V, W.
    destruct (serde_optional g); [discriminate|]. destruct (g_inner_mut g); discriminate.
Qed.
(** A plain field is never in error outside its methods. *)
Lemma plain_fine_build : is_sync c f = false -> fine (field_build_value c f).
Proof.
  intros S. unfold field_build_value. fold g. rewrite S. unfold plain_builder_value.
  destruct plain_default_ok as (d & D). rewrite D. cbn [gbind].
  destruct (_ && _); [apply fine_ok|]. destruct (g_lazy g) eqn:L; [apply fine_ok|].
  destruct (_ && _); [apply fine_ok|]. unfold value_for_set.
  assert (V : forall e, exists x, plain_value_wrap g (RVersatile e) = GOk x)
    by (intros; apply plain_wrap_ok; discriminate).
  destruct (g_has_default g); cbn [gbind].
  - destruct (V (EVar "field_manual_value")) as (x & ->). apply fine_ok.
  - destruct (_ && _); [destruct (plain_wrap_ok (RExact (EC0 PNone))) as (y & ->); [discriminate|]|]; cbn [gbind].
    + destruct (V (EVar "field_manual_value")) as (x & ->). apply fine_ok.
    + apply V.
Qed.
Lemma fine_build : bareb = false -> unknownb = false -> fine (field_build_value c f).
Proof.
  intros B U. destruct (is_sync c f) eqn:S; [|apply plain_fine_build, S].
  unfold field_build_value. fold g. rewrite S. unfold sync_builder_value.
  apply fine_bind; [unfold sync_type; fine U|intros _].
  assert (W : forall r, r <> RNone -> fine (sync_value_wrap g r))
    by (intros; apply (fine_sync_wrap _ U); auto).
  assert (D : fine (sync_default_wrap g))
    by (apply (fine_sync_wrap _ U); intros L O; apply default_not_none; assumption).
  assert (VS : fine (value_for_set g (sync_value_wrap g) (sync_default_wrap g))).
  { unfold value_for_set. apply fine_bind.
    - destruct (g_has_default g); [apply fine_bind; [exact D|intros; fine U]|].
      destruct (_ && _); [|fine U]. apply fine_bind; [apply W; discriminate|intros; fine U].
    - intros [x|]; [apply fine_bind; [apply W; discriminate|intros; fine U]|apply W; discriminate]. }
  apply fine_bind.
  - destruct (g_has_default g) eqn:H; [|fine U]. apply fine_bind; [|intros; fine U].
    unfold bareb in B. rewrite S, H in B. unfold field_default_value, repr_expect.
    destruct (g_default g); [fine U|]. cbv beta iota delta [andb] in B. rewrite B. fine U.
  - intros o. destruct (_ && _).
    + apply (fine_sync_wrap _ U). intros L O. apply default_not_none; assumption.
    + destruct (g_lazy g); [unfold wrap_builder; fine U|]. destruct (g_lock g); [exact VS|].
      destruct (g_optional g); [fine U|exact VS].
Qed.
Lemma plain_fine_from_shadow : is_sync c f = false -> fine (field_from_shadow c f).
Proof.
  intros S. unfold field_from_shadow. fold g. rewrite S.
  destruct (plain_wrap_ok (RVersatile (EVar "v"))) as (v & V); [discriminate|].
  destruct (plain_wrap_ok (RVersatile (EFld "__shadow"))) as (w & W); [discriminate|].
  unfold plain_from_shadow. destruct plain_default_ok as (d & ->). rewrite V, W.
  destruct (serde_optional g); [apply fine_ok|]. destruct (g_inner_mut g); apply fine_ok.
Qed.

(** The whole preparation of a field. *)
Definition prepared : gres unit :=
  do _d <- field_default c f; do _m <- field_methods c f; gdone (field_type c f).
Lemma prepare_sim : sim (prepare_field c f) prepared.
Proof.
  unfold prepare_field, prepared. apply sim_bind; [apply default_step_sim|intros].
  apply sim_bind; [apply methods_step_sim|intros]. apply sim_refl.
Qed.
Lemma prepared_good : badb = false -> prepared = GOk tt.
Proof.
  intros B. unfold prepared. destruct unknownb eqn:U.
  - unfold badb in B. rewrite U in B. cbv beta iota delta [andb orb negb] in B. apply orb_false_iff in B. destruct B as [S B].
    unfold field_default, field_methods, field_type. fold g. rewrite S.
    destruct plain_default_ok as (d & ->). cbn [gbind].
    assert (M : fine (plain_methods g)).
    { unfold plain_methods. destruct (g_skip g); [apply fine_ok|]. cbv beta iota delta [andb orb negb] in B.
      unfold plain_accessor, plain_accessor_mut, plain_setter, plain_clearer, plain_predicate.
      destruct (g_lazy g).
      - cbv beta iota delta [andb orb negb] in B. apply orb_false_iff in B. destruct B as [-> ->]. fine U.
      - fine U. }
    destruct M as (l & ->). reflexivity.
  - destruct (fine_default U) as (d & ->), (fine_methods U) as (m & ->), (fine_type U) as (t & ->). reflexivity.
Qed.
Lemma prepared_bad : badb = true -> prepared = GErr unknown_type.
Proof.
  intros B. unfold badb in B. apply andb_true_iff in B. destruct B as [U B]. unfold prepared.
  destruct oou_default as [[d D]|D]; rewrite D; [|reflexivity]. cbn [gbind].
  destruct oou_methods as [[l M]|M]; rewrite M; [|reflexivity]. cbn [gbind].
  destruct (is_sync c f) eqn:S.
  - unfold field_type, sync_type. fold g. rewrite S, wto, U. reflexivity.
  - cbv beta iota delta [andb orb negb] in B. apply andb_true_iff in B. destruct B as [B G]. apply andb_true_iff in B. destruct B as [K L].
    exfalso. revert M. unfold field_methods. fold g. rewrite S. unfold plain_methods.
    apply negb_true_iff in K. rewrite K. unfold plain_accessor, plain_accessor_mut. rewrite L.
    destruct (g_get g); [rewrite (frt_bad _ U); discriminate|]. cbv beta iota delta [andb orb negb] in G. rewrite G, (frt_bad _ U).
    cbn [gbind]. discriminate.
Qed.
Lemma prepare_cases :
  (exists m, prepare_field c f = GPanic m)
  \/ prepare_field c f = if badb then GErr unknown_type else GOk tt.
Proof.
  destruct prepare_sim as [E|E]; [right|left; exact E]. rewrite E.
  destruct badb eqn:B; [apply prepared_bad, B|apply prepared_good, B].
Qed.
End One.

(** ** Running the steps *)
Definition quiet {A} (r : gres A) : Prop := forall m, r <> GPanic m.
Lemma run_ok : forall l es, run l = GOk es ->
  forall n r, In (n, r) l -> quiet r /\ forall m, r = GErr m -> In (n, m) es.
Proof.
  induction l as [|[n0 r0] l IH]; intros es E n r I; [destruct I|].
  cbn [run] in E. destruct r0 as [u|m0|m0]; [| |discriminate].
  - destruct I as [Q|I]; [|apply (IH es E n r I)]. injection Q as <- <-. split; [intros m|intros m]; discriminate.
  - destruct (run l) as [es'|m|m] eqn:R; cbn [gbind] in E; try discriminate. injection E as <-.
    destruct I as [Q|I].
    + injection Q as <- <-. split; [intros m; discriminate|]. intros m K. injection K as <-. left. reflexivity.
    + destruct (IH es' eq_refl n r I) as [A B]. split; [exact A|]. intros m K. right. apply B, K.
Qed.
Lemma run_from : forall l es, run l = GOk es -> forall n m, In (n, m) es -> In (n, GErr m) l.
Proof.
  induction l as [|[n0 r0] l IH]; intros es E n m I.
  - injection E as <-. destruct I.
  - cbn [run] in E. destruct r0 as [u|m0|m0]; [| |discriminate].
    + right. apply (IH es E n m I).
    + destruct (run l) as [es'|m'|m'] eqn:R; cbn [gbind] in E; try discriminate. injection E as <-.
      destruct I as [Q|I]; [injection Q as <- <-; left; reflexivity|right; apply (IH es' eq_refl n m I)].
Qed.
Lemma run_quiet : forall l, (forall n r, In (n, r) l -> quiet r) -> exists es, run l = GOk es.
Proof.
  induction l as [|[n0 r0] l IH]; intros H; [eexists; reflexivity|].
  destruct IH as (es & E); [intros n r I; apply (H n r); right; exact I|].
  cbn [run]. rewrite E. destruct r0 as [u|m|m]; [eauto|cbn [gbind]; eauto|].
  destruct (H n0 (GPanic m) (or_introl eq_refl) m eq_refl).
Qed.

Section All.
Variable path assignment : string -> bool.
Variable c : sctx.
Notation steps := (steps path assignment c).
Notation expand := (expand path assignment c).

Lemma in_prepare : forall f, In f (all_fields c) -> In (f_ident f, prepare_field c f) steps.
Proof.
  intros f I. unfold steps. apply in_or_app. right. apply in_or_app. left.
  apply (in_map (fun f => (f_ident f, prepare_field c f)) _ _ I).
Qed.
Lemma in_shadow_struct : In ("", shadow_struct_step path assignment c) steps.
Proof.
  unfold steps. do 3 (apply in_or_app; right). apply in_or_app. left. simpl. auto.
Qed.
Lemma in_from_shadow : forall f, from_shadow_emitted c = true -> In f (all_fields c) ->
  is_serde c f && needs_deserialize c f = true -> In (f_ident f, gdone (from_shadow_step c f)) steps.
Proof.
  intros f E I S. unfold steps. do 4 (apply in_or_app; right). apply in_or_app. left.
  unfold from_shadow_steps. rewrite E. right.
  apply (in_map (fun f => (f_ident f, gdone (from_shadow_step c f)))), filter_In. auto.
Qed.
Lemma in_into_shadow : forall f, into_shadow_emitted c = true -> In f (serialized c) ->
  In (f_ident f, into_shadow_step c f) steps.
Proof.
  intros f E I. unfold steps. do 5 (apply in_or_app; right). apply in_or_app. left.
  unfold into_shadow_steps. rewrite E. right.
  apply (in_map (fun f => (f_ident f, into_shadow_step c f)) _ _ I).
Qed.
Lemma in_build : forall f, needs_builder_struct c = true -> In f (all_fields c) -> reaches_builder c f = true ->
  In (f_ident f, gdone (build_step c f)) steps.
Proof.
  intros f E I S. unfold steps. do 6 (apply in_or_app; right).
  unfold builder_steps. rewrite E. right. right.
  apply (in_map (fun f => (f_ident f, gdone (build_step c f)))), filter_In. auto.
Qed.

(** Where a step comes from. *)
Inductive origin : string -> gres unit -> Prop :=
| o_hidden : origin "" (hidden_step c)
| o_prepare : forall f, In f (all_fields c) -> origin (f_ident f) (prepare_field c f)
| o_attribute : forall f n, In f (all_fields c) -> is_serde c f = true ->
    origin (f_ident f) (serde_attribute_step c f n)
| o_struct_attr : origin "" (serde_struct_step c)
| o_myself : origin "" (myself_step c)
| o_builder_fn : origin "" (builder_fn_step c)
| o_shadow : origin "" (shadow_struct_step path assignment c)
| o_shadow_ident : s_is_serde (c_args c) = true -> origin "" (gdone (shadow_ident_of c))
| o_from : forall f, In f (all_fields c) -> origin (f_ident f) (gdone (from_shadow_step c f))
| o_into : forall f, In f (all_fields c) -> origin (f_ident f) (into_shadow_step c f)
| o_builder : origin "" (gdone (builder_ident c))
| o_myself_field : origin "" (gdone (myself_field_ident c))
| o_build : forall f, In f (all_fields c) -> reaches_builder c f = true ->
    origin (f_ident f) (gdone (build_step c f)).

Lemma prepare_origin : forall l n k r, (forall f, In f l -> In f (all_fields c)) ->
  In (k, r) (serde_prepare c n l) -> origin k r.
Proof.
  induction l as [|f l IH]; intros n k r S I; [destruct I|].
  assert (S' : forall f', In f' l -> In f' (all_fields c)) by (intros; apply S; right; assumption).
  cbn [serde_prepare] in I. destruct (is_serde c f) eqn:E; [|apply (IH _ _ _ S' I)].
  destruct I as [Q|I]; [|apply (IH _ _ _ S' I)]. injection Q as <- <-.
  apply o_attribute; [apply S; left; reflexivity|exact E].
Qed.
Lemma steps_origin : forall k r, In (k, r) steps -> origin k r.
Proof.
  intros k r I. unfold MacroModel.steps in I.
  apply in_app_or in I. destruct I as [[Q|[]]|I]; [injection Q as <- <-; constructor|].
  apply in_app_or in I. destruct I as [I|I].
  { apply in_map_iff in I. destruct I as (f & Q & I). injection Q as <- <-. constructor. exact I. }
  apply in_app_or in I. destruct I as [I|I]; [apply (prepare_origin _ _ _ _ (fun _ X => X) I)|].
  apply in_app_or in I. destruct I as [I|I].
  { simpl in I. destruct I as [Q|[Q|[Q|[Q|[]]]]]; injection Q as <- <-; constructor. }
  apply in_app_or in I. destruct I as [I|I].
  { unfold from_shadow_steps, from_shadow_emitted in I.
    destruct (s_is_serde (c_args c)) eqn:Z; [|destruct I]. destruct (s_needs_deserialize _); [|destruct I].
    destruct I as [Q|I]; [injection Q as <- <-; constructor; exact Z|].
    apply in_map_iff in I. destruct I as (f & Q & I). injection Q as <- <-.
    apply filter_In in I. constructor. apply I. }
  apply in_app_or in I. destruct I as [I|I].
  { unfold into_shadow_steps, into_shadow_emitted in I.
    destruct (s_is_serde (c_args c)) eqn:Z; [|destruct I]. destruct (s_needs_serialize _); [|destruct I].
    destruct I as [Q|I]; [injection Q as <- <-; constructor; exact Z|].
    apply in_map_iff in I. destruct I as (f & Q & I). injection Q as <- <-.
    apply filter_In in I. constructor. apply I. }
  unfold builder_steps in I. destruct (needs_builder_struct c); [|destruct I].
  destruct I as [Q|[Q|I]]; [injection Q as <- <-; constructor|injection Q as <- <-; constructor|].
  apply in_map_iff in I. destruct I as (f & Q & I). injection Q as <- <-.
  apply filter_In in I. constructor; apply I.
Qed.

(** ** Errors *)
Lemma made_not_err : forall A (r : gres A) m, made r -> r <> GErr m.
Proof. intros A r m [[a ->]|[x ->]]; discriminate. Qed.
Lemma done_err : forall A (r : gres A) m, gdone r = GErr m -> r = GErr m.
Proof. intros A [a|x|x] m E; try discriminate. injection E as ->. reflexivity. Qed.
Lemma done_panic : forall A (r : gres A) m, gdone r = GPanic m <-> r = GPanic m.
Proof. intros A [a|x|x] m; split; intros E; try discriminate; injection E as ->; reflexivity. Qed.

Lemma build_err : forall f m, field_build_value c f = GErr m -> badb c f = true /\ m = unknown_type.
Proof.
  intros f m E. destruct (is_sync c f) eqn:Z.
  - assert (U : unknownb c f = true /\ m = unknown_type).
    { unfold field_build_value in E. rewrite Z in E. destruct (unknownb c f) eqn:U.
      - split; [reflexivity|]. unfold sync_builder_value, sync_type in E. rewrite wto, U in E.
        cbn [gbind] in E. injection E as <-. reflexivity.
      - exfalso. destruct (bareb c f) eqn:B.
        + revert E. unfold sync_builder_value, sync_type. rewrite wto, U. cbn [gbind].
          unfold bareb in B. rewrite Z in B. cbn [andb] in B.
          apply andb_true_iff in B. destruct B as [B L]. apply andb_true_iff in B. destruct B as [H N].
          rewrite H. unfold field_default_value. destruct (g_default (cfg_of c f)); [discriminate|].
          rewrite L. cbn [repr_expect gbind]. discriminate.
        + destruct (fine_build c f B U) as (e & K). unfold field_build_value in K. rewrite Z in K.
          rewrite K in E. discriminate. }
    destruct U as [U ->]. split; [|reflexivity]. unfold badb. rewrite U, Z. reflexivity.
  - destruct (plain_fine_build c f Z) as (e & K). rewrite K in E. discriminate.
Qed.
Lemma from_shadow_err : forall f m, field_from_shadow c f = GErr m -> badb c f = true /\ m = unknown_type.
Proof.
  intros f m E. destruct (is_sync c f) eqn:Z.
  - assert (M : m = unknown_type).
    { destruct (oou_from_shadow c f) as [[a K]|K]; rewrite K in E; [discriminate|]. injection E as <-. reflexivity. }
    split; [|exact M]. unfold badb. rewrite Z. destruct (unknownb c f) eqn:U; [reflexivity|].
    destruct (fine_from_shadow c f U) as (e & K). rewrite K in E. discriminate.
  - destruct (plain_fine_from_shadow c f Z) as (e & K). rewrite K in E. discriminate.
Qed.
Lemma sim_err : forall A (r r' : gres A) m, sim r r' -> r = GErr m -> r' = GErr m.
Proof. intros A r r' m [<-|[x ->]] E; [exact E|discriminate]. Qed.

Lemma shadow_struct_err : forall m, shadow_struct_step path assignment c = GErr m ->
  bad_serde_default path assignment c /\ serde_message c m.
Proof.
  intros m E. unfold shadow_struct_step in E. destruct (s_is_serde (c_args c)) eqn:Z; [|discriminate].
  cbn [gwhen] in E. destruct (s_serde (c_args c)) as [w|] eqn:W; [|discriminate].
  cbn [gunwrap gbind] in E. destruct (made_shadow c) as [[s S]|[x S]]; rewrite S in E; [|discriminate].
  cbn [gbind] in E. unfold shadow_default_step in E. rewrite W in E.
  unfold has_serde_default in E. destruct (se_default w) as [d|] eqn:D; [|discriminate].
  unfold defarg_is_true in E. destruct (d_off d) eqn:O; [discriminate|]. cbn [negb gwhen gunwrap gbind] in E.
  destruct (d_value d) as [v|] eqn:V; [|discriminate].
  set (n := List.length _) in E.
  assert (F : made (gdone (shadow_default_fn_ident c n))).
  { apply made_done, made_bind; [apply made_shadow|intros; apply made_format]. }
  unfold bad_serde_default, serde_message. rewrite W.
  assert (R : (if d_is_str d then path v = false else assignment v = true)
              /\ m = if d_is_str d then "Invalid default string" else "Unexpected kind of argument").
  { destruct (d_is_str d); [destruct (path v)|destruct (assignment v)]; cbn [gbind] in E;
      try (destruct (made_not_err _ _ _ F E)); injection E as <-; auto. }
  split; [split; [exact Z|]; exists w, d, v; intuition|exists w, d; intuition].
Qed.
Lemma shadow_struct_bad : bad_serde_default path assignment c -> quiet (shadow_struct_step path assignment c) ->
  exists m, shadow_struct_step path assignment c = GErr m.
Proof.
  intros (Z & w & d & v & W & D & O & V & B) Q. revert Q. unfold shadow_struct_step. rewrite Z.
  cbn [gwhen]. rewrite W. cbn [gunwrap gbind].
  destruct (made_shadow c) as [[s S]|[x S]]; rewrite S; [|intros Q; destruct (Q x eq_refl)].
  cbn [gbind]. unfold shadow_default_step. rewrite W. unfold has_serde_default. rewrite D.
  unfold defarg_is_true. rewrite O. cbn [negb gwhen gunwrap gbind]. rewrite V. intros _.
  destruct (d_is_str d); rewrite B; cbn [gbind]; eauto.
Qed.

Lemma origin_err : forall k m r, origin k r -> r = GErr m ->
  (exists f, In f (all_fields c) /\ badb c f = true /\ k = f_ident f /\ m = unknown_type)
  \/ (bad_serde_default path assignment c /\ k = "" /\ serde_message c m).
Proof.
  intros k m r O E. destruct O.
  - destruct (made_not_err _ _ m (made_when _ _
      (made_bind _ _ _ _ (made_myself_field c) (fun o _ => made_done _ _ (made_unwrap _ o)))) E).
  - left. exists f. destruct (prepare_cases c f) as [[x X]|X]; rewrite X in E; [discriminate|].
    destruct (badb c f) eqn:B; [|discriminate]. injection E as <-. auto.
  - exfalso. revert E. apply made_not_err. apply made_when, made_bind.
    + destruct (f_serde f) as [w|]; [|apply made_ok]. apply made_when, made_bind; [apply made_unwrap|].
      intros d _. apply made_when, made_done, made_format.
    + intros _ _. destruct (f_base_name_of f); [apply made_done, made_new|apply made_ok].
  - exfalso. revert E. apply made_not_err. apply made_when, made_bind; [apply made_unwrap|].
    intros. apply made_done, made_shadow.
  - exfalso. revert E. apply made_not_err. apply made_when, made_bind; [apply made_unwrap|intros].
    apply made_bind; [apply made_myself|intros]. apply made_bind; [apply made_unwrap|intros].
    apply made_done, made_myself_field.
  - exfalso. revert E. apply made_not_err. apply made_when, made_done, made_format.
  - right. destruct (shadow_struct_err m E). auto.
  - exfalso. revert E. apply made_not_err, made_done, made_shadow.
  - left. exists f. apply done_err in E. apply (sim_err _ _ _ _ (from_shadow_sim c f)) in E.
    destruct (from_shadow_err f m E). auto.
  - exfalso. revert E. apply made_not_err, into_shadow_made.
  - exfalso. revert E. apply made_not_err, made_done, made_format.
  - exfalso. revert E. apply made_not_err, made_done, made_myself_field.
  - left. exists f. apply done_err in E. apply (sim_err _ _ _ _ (build_step_sim c f)) in E.
    destruct (build_err f m E). auto.
Qed.

Lemma errors_from : forall es n m, expand = GOk es -> In (n, m) es ->
  (exists f, In f (all_fields c) /\ bad_field c f /\ n = f_ident f /\ m = unknown_type)
  \/ (bad_serde_default path assignment c /\ n = "" /\ serde_message c m).
Proof.
  intros es n m E I. apply (run_from _ _ E) in I. apply steps_origin in I.
  destruct (origin_err n m _ I eq_refl) as [(f & F & B & R)|R]; [left|right; exact R].
  exists f. rewrite <- badb_spec. auto.
Qed.
Lemma errors_field : forall es f, expand = GOk es -> In f (all_fields c) -> bad_field c f ->
  In (f_ident f, unknown_type) es.
Proof.
  intros es f E I B. apply badb_spec in B. destruct (run_ok _ _ E _ _ (in_prepare f I)) as [Q R].
  apply R. destruct (prepare_cases c f) as [[x X]|X]; [destruct (Q x X)|]. rewrite X, B. reflexivity.
Qed.
Lemma errors_serde : forall es, expand = GOk es -> bad_serde_default path assignment c ->
  exists m, In ("", m) es /\ serde_message c m.
Proof.
  intros es E B. destruct (run_ok _ _ E _ _ in_shadow_struct) as [Q R].
  destruct (shadow_struct_bad B Q) as (m & X). exists m. split; [apply R, X|apply (shadow_struct_err m X)].
Qed.

(** ** What is left out *)
Lemma succeeds_cases : forall A (r : gres A), succeeds r = true \/ (exists m, r = GErr m) \/ exists m, r = GPanic m.
Proof. intros A [a|m|m]; simpl; eauto. Qed.
Lemma failed_prepare : forall es f, expand = GOk es -> In f (all_fields c) ->
  succeeds (prepare_field c f) = false -> exists m, In (f_ident f, m) es.
Proof.
  intros es f E I F. destruct (run_ok _ _ E _ _ (in_prepare f I)) as [Q R].
  destruct (succeeds_cases _ (prepare_field c f)) as [K|[[m K]|[m K]]].
  - rewrite K in F. discriminate.
  - exists m. apply R, K.
  - destruct (Q m K).
Qed.
Lemma prepare_needs : forall f, succeeds (prepare_field c f) = true ->
  succeeds (field_default_step c f) = true /\ succeeds (field_methods_step c f) = true.
Proof.
  intros f. unfold prepare_field. destruct (field_default_step c f); cbn [gbind]; try discriminate.
  destruct (field_methods_step c f); cbn [gbind]; try discriminate. auto.
Qed.

(** The name [f_ident f] is missing from a selection of the fields. *)
Lemma missing : forall P l f, In f l -> ~ In (f_ident f) (map f_ident (filter P l)) -> P f = false.
Proof.
  intros P l f I N. destruct (P f) eqn:E; [|reflexivity]. destruct N. apply in_map, filter_In. auto.
Qed.
Lemma filter_all : forall A (P : A -> bool) l, (forall a, In a l -> P a = true) -> filter P l = l.
Proof.
  induction l as [|a l IH]; intros H; simpl; [reflexivity|]. rewrite (H a (or_introl eq_refl)), IH; [reflexivity|].
  intros b I. apply H. right. exact I.
Qed.
Lemma filter_ext_in' : forall A (P Q : A -> bool) l, (forall a, In a l -> P a = Q a) -> filter P l = filter Q l.
Proof.
  induction l as [|a l IH]; intros H; simpl; [reflexivity|]. rewrite (H a (or_introl eq_refl)), IH; [reflexivity|].
  intros b I. apply H. right. exact I.
Qed.

Section Done.
Variable es : list err.
Hypothesis E : expand = GOk es.

Lemma declared_or_reported : forall f, In f (all_fields c) ->
  succeeds (prepare_field c f) = true \/ exists m, In (f_ident f, m) es.
Proof.
  intros f I. destruct (succeeds (prepare_field c f)) eqn:K; [auto|right; apply (failed_prepare es f E I K)].
Qed.
Lemma reaches_or_reported : forall f, In f (all_fields c) -> f_is_skipped f = false ->
  reaches_builder c f = true \/ exists m, In (f_ident f, m) es.
Proof.
  intros f I K. destruct (declared_or_reported f I) as [P|P]; [left|auto].
  destruct (prepare_needs f P) as [A B]. unfold reaches_builder. rewrite K, A, B. reflexivity.
Qed.
Lemma build_or_reported : forall f, needs_builder_struct c = true -> In f (all_fields c) -> reaches_builder c f = true ->
  succeeds (build_step c f) = true \/ exists m, In (f_ident f, m) es.
Proof.
  intros f N I K. destruct (run_ok _ _ E _ _ (in_build f N I K)) as [Q R].
  destruct (succeeds_cases _ (build_step c f)) as [S|[[m S]|[m S]]]; [auto| |].
  - right. exists m. apply R. rewrite S. reflexivity.
  - destruct (Q m). rewrite S. reflexivity.
Qed.
Lemma from_or_reported : forall f, from_shadow_emitted c = true -> In f (all_fields c) ->
  is_serde c f && needs_deserialize c f = true ->
  succeeds (from_shadow_step c f) = true \/ exists m, In (f_ident f, m) es.
Proof.
  intros f N I K. destruct (run_ok _ _ E _ _ (in_from_shadow f N I K)) as [Q R].
  destruct (succeeds_cases _ (from_shadow_step c f)) as [S|[[m S]|[m S]]]; [auto| |].
  - right. exists m. apply R. rewrite S. reflexivity.
  - destruct (Q m). rewrite S. reflexivity.
Qed.
Lemma into_ok : forall f, into_shadow_emitted c = true -> In f (serialized c) -> succeeds (into_shadow_step c f) = true.
Proof.
  intros f N I. destruct (run_ok _ _ E _ _ (in_into_shadow f N I)) as [Q _].
  destruct (into_shadow_made c f) as [[a ->]|[m K]]; [reflexivity|destruct (Q m K)].
Qed.
End Done.
End All.

(** ** No panic *)
Lemma quiet_bind : forall A B (r : gres A) (k : A -> gres B),
  quiet r -> (forall a, r = GOk a -> quiet (k a)) -> quiet (gbind r k).
Proof.
  intros A B r k Q K. destruct r as [a|m|m]; cbn [gbind]; [apply K; reflexivity|discriminate|destruct (Q m eq_refl)].
Qed.
Lemma quiet_ok : forall A (a : A), quiet (GOk a).
Proof. discriminate. Qed.
Lemma quiet_oou : forall A (r : gres A), ok_or_unknown r -> quiet r.
Proof. intros A r [[a ->]| ->]; discriminate. Qed.
Lemma quiet_done : forall A (r : gres A), quiet r -> quiet (gdone r).
Proof. intros. apply quiet_bind; [assumption|intros; apply quiet_ok]. Qed.
Lemma quiet_fine : forall A (r : gres A), (exists a, r = GOk a) -> quiet r.
Proof. intros A r [a ->]. discriminate. Qed.
Lemma quiet_when : forall b r, (b = true -> quiet r) -> quiet (gwhen b r).
Proof. intros [] r Q; [apply Q; reflexivity|apply quiet_ok]. Qed.
Lemma quiet_unwrap : forall A (a : A), quiet (gunwrap (Some a)).
Proof. discriminate. Qed.

Section Quiet.
Variable path assignment : string -> bool.
Variable c : sctx.
Hypothesis ok : ok_input c.

Lemma q_myself : s_is_ref_counted (c_args c) = true -> exists n, myself_name c = Some n.
Proof.
  unfold s_is_ref_counted, myself_name. destruct (s_rc (c_args c)); [eauto|discriminate].
Qed.
Lemma q_self : quiet (self_ref c).
Proof.
  apply quiet_when. intros R. destruct (q_myself R) as (n & E).
  destruct (myself_ok c (ok_struct c ok) n E) as [-> _]. cbn [gbind]. discriminate.
Qed.

Lemma hidden_ok : forall n, myself_name c = Some n -> field_names_ok (rc_field ("__weak_" ++ n) (weak_type c)).
Proof.
  intros n E. split.
  - apply text_identifier, ident_text_app; [reflexivity|].
    apply ident_text_chars, (myself_text c (ok_struct c ok) n E).
  - intros m (a & X & _). discriminate.
  - intros k h m G (a & X & _). destruct k; try discriminate. injection G as <-. discriminate.
Qed.
Lemma all_names_ok : forall f, In f (all_fields c) -> field_names_ok f.
Proof.
  intros f I. unfold all_fields in I. apply in_app_or in I. destruct I as [I|I]; [|apply (ok_fields c ok f I)].
  unfold extra_fields in I. destruct (s_is_ref_counted (c_args c)) eqn:R; [|destruct I].
  destruct (q_myself R) as (n & E). unfold myself_field in I. rewrite E in I. cbn [option_map] in I.
  destruct I as [<-|[]]. apply hidden_ok, E.
Qed.
Lemma not_bare : forall f, In f (all_fields c) -> bareb c f = false.
Proof.
  intros f I. unfold bareb. destruct (is_sync c f) eqn:S; [|reflexivity].
  unfold cfg_of. cbn [g_has_default g_default g_lazy g_optional].
  destruct (f_has_default_value f) eqn:H; [|reflexivity]. unfold default_value. rewrite H.
  unfold f_has_default_value in H. destruct (f_default f) as [d|] eqn:D; [|discriminate].
  destruct (d_value d) as [v|] eqn:V; [reflexivity|]. cbn [option_map andb].
  unfold defarg_is_true in H. apply negb_true_iff in H.
  unfold all_fields in I. apply in_app_or in I. destruct I as [I|I].
  - exfalso. unfold extra_fields in I. destruct (s_is_ref_counted (c_args c)); [|destruct I].
    destruct (myself_field c); [|destruct I]. destruct I as [<-|[]]. discriminate.
  - destruct (ok_default c ok f d I D H V S) as [-> ->]. reflexivity.
Qed.

Section F.
Variable f : field.
Hypothesis I : In f (all_fields c).
Let g := cfg_of c f.

Lemma q_named : forall k, quiet (named c f k).
Proof.
  intros k. destruct (helper_ident_ok c (ok_struct c ok) f k (all_names_ok f I)) as (n & E & _).
  unfold named. rewrite E. discriminate.
Qed.
Lemma q_lazy_builder : quiet (lazy_builder c f).
Proof.
  unfold lazy_builder. destruct (g_async _); [|apply q_named].
  destruct (wrapper_ident_ok c (ok_struct c ok) f (all_names_ok f I)) as (n & -> & _). discriminate.
Qed.
Lemma q_lazy_init : quiet (plain_lazy_initializer c f).
Proof. apply quiet_bind; [apply q_named|intros; apply q_self]. Qed.

(** A copy or clone argument has been written somewhere. *)
Lemma mode_span_some : g_clone g || g_copy g = true -> exists u, accessor_mode_span c f = Some u.
Proof.
  unfold g, cfg_of. cbn [g_clone g_copy]. unfold is_clone, is_copy, accessor_mode_span, obool_or.
  unfold f_is_accessor_copy, f_is_accessor_clone, s_is_accessor_copy, s_is_accessor_clone,
    f_accessor_mode, s_accessor_mode, f_is_copy, f_is_clone, s_is_copy, s_is_clone, mode_span, accessor_arg_mode.
  intros H.
  destruct (f_accessor f) as [a|]; [destruct (a_clone a), (a_copy a), (a_as_ref a); cbn in *; eauto|];
  (destruct (f_copy f) as [[]|], (f_clone f) as [[]|]; cbn in *; eauto; try discriminate;
   (destruct (s_accessor (c_args c)) as [b|]; [destruct (a_clone b), (a_copy b), (a_as_ref b); cbn in *; eauto|];
    (destruct (s_copy (c_args c)) as [[]|], (s_clone (c_args c)) as [[]|]; cbn in *; eauto; discriminate))).
Qed.

Ltac q := repeat first
  [ apply quiet_ok | apply q_named | apply q_self | apply q_lazy_builder | apply q_lazy_init
  | apply quiet_when; intros | apply quiet_bind; [|intros] ].

Lemma q_plain_methods : quiet (plain_field_methods c f).
Proof.
  unfold plain_field_methods. fold g. destruct (g_skip g); [q|].
  apply quiet_bind.
  { unfold plain_get. fold g. destruct (g_get g); [|q]. q.
    apply quiet_oou. unfold plain_accessor. repeat first [apply oou_ok | apply oou_frt | apply oou_bind; [|intros]
      | match goal with |- ok_or_unknown (if ?b then _ else _) => destruct b end]. }
  intros a _. apply quiet_bind.
  { unfold plain_get_mut. fold g. destruct (g_get_mut g); [|q]. q.
    apply quiet_oou. unfold plain_accessor_mut. repeat first [apply oou_ok | apply oou_frt | apply oou_bind; [|intros]
      | match goal with |- ok_or_unknown (if ?b then _ else _) => destruct b end]. }
  intros am _. apply quiet_bind.
  { destruct (g_set g) eqn:Z; [|q]. q. unfold plain_setter. rewrite Z.
    destruct (g_lazy g), (g_inner_mut g), (g_optional g); discriminate. }
  intros s _. apply quiet_bind.
  { destruct (g_clearer g) eqn:Z; [|q]. q. unfold plain_clearer. rewrite Z.
    destruct (g_inner_mut g); discriminate. }
  intros cl _. apply quiet_bind; [|intros p _; q].
  destruct (_ && _) eqn:Z; [|q]. q. unfold plain_predicate. rewrite Z.
  destruct (g_lazy g), (g_inner_mut g); discriminate.
Qed.
Lemma q_reader : forall k, quiet (reader_method g k).
Proof.
  intros k. apply quiet_oou. unfold reader_method.
  repeat first [apply oou_ok | apply oou_frt | apply oou_bind; [|intros]
      | match goal with |- ok_or_unknown (if ?b then _ else _) => destruct b end].
Qed.
Lemma q_sync_read : forall k, quiet (sync_read c f k).
Proof. intros k. unfold sync_read. q. apply q_reader. Qed.
Lemma q_sync_methods : quiet (sync_field_methods c f).
Proof.
  unfold sync_field_methods. fold g. destruct (g_skip g); [q|].
  assert (A : quiet (sync_accessor g)).
  { apply quiet_oou. unfold sync_accessor, reader_method.
    repeat first [apply oou_ok | apply oou_frt | apply oou_bind; [|intros]
      | match goal with |- ok_or_unknown (if ?b then _ else _) => destruct b end]. }
  apply quiet_bind.
  { unfold sync_get. fold g. destruct (g_get g); [|q]. apply quiet_bind; [q|intros _ _].
    destruct (g_clone g || g_copy g) eqn:CC.
    - destruct (mode_span_some CC) as (u & ->). cbn [gunwrap gbind]. apply quiet_bind; [q|intros; exact A].
    - destruct (g_lazy g || g_lock g); [apply q_sync_read|exact A]. }
  intros a _. apply quiet_bind.
  { unfold sync_get_mut. fold g. destruct (g_get_mut g); [|q]. q.
    apply quiet_oou. unfold sync_accessor_mut. repeat first [apply oou_ok | apply oou_frt | apply oou_bind; [|intros]
      | match goal with |- ok_or_unknown (if ?b then _ else _) => destruct b end]. }
  intros am _. apply quiet_bind; [destruct (g_reader g); [apply q_sync_read|q]|intros r _].
  apply quiet_bind.
  { destruct (g_writer g) eqn:Z; [|q]. q. apply quiet_oou. unfold sync_writer.
    repeat first [apply oou_ok | apply oou_wto | apply oou_bind; [|intros]
      | match goal with |- ok_or_unknown (if ?b then _ else _) => destruct b end]. }
  intros w _. apply quiet_bind.
  { destruct (g_set g) eqn:Z; [|q]. q. unfold sync_setter. rewrite Z.
    destruct (g_lazy g), (g_lock g), (g_optional g); discriminate. }
  intros s _. apply quiet_bind.
  { destruct (g_clearer g) eqn:Z; [|q]. q. unfold sync_clearer. rewrite Z. discriminate. }
  intros cl _. apply quiet_bind.
  { destruct (g_predicate g) eqn:Z; [|q]. q. unfold sync_predicate. rewrite Z.
    destruct (g_lazy g), (g_lock g); discriminate. }
  intros p _. apply quiet_bind; [|intros w' _; q].
  unfold sync_wrapper_fn. fold g. apply quiet_when. intros _.
  destruct (wrapper_ident_ok c (ok_struct c ok) f (all_names_ok f I)) as (n & -> & _). cbn [gbind].
  apply quiet_bind; [q|intros]. apply quiet_oou, oou_wto.
Qed.
Lemma q_sync_wrap : forall r, (g_lazy g = false -> g_optional g = false -> r <> RNone) -> quiet (sync_wrap c f r).
Proof.
  intros r N. unfold sync_wrap. fold g. destruct (g_lazy g) eqn:L.
  - assert (T : quiet (sync_type g)).
    { apply quiet_oou. unfold sync_type. apply oou_bind; [apply oou_wto|intros; apply oou_ok]. }
    assert (W : quiet (sync_value_wrap g r)).
    { apply quiet_oou. apply (oou_sync_wrap c f r). intros L'. fold g in L'. rewrite L in L'. discriminate. }
    apply quiet_bind; [exact T|intros t _]. apply quiet_bind; [apply q_lazy_builder|intros u _; exact W].
  - apply quiet_oou. apply (oou_sync_wrap c f r). intros _. apply N. reflexivity.
Qed.
Lemma q_default : quiet (field_default_step c f).
Proof.
  unfold field_default_step. fold g. destruct (is_sync c f) eqn:S.
  - apply q_sync_wrap. intros L O. apply default_not_none; assumption.
  - apply quiet_fine, plain_default_ok.
Qed.
Lemma q_methods : quiet (field_methods_step c f).
Proof.
  unfold field_methods_step. fold g. apply quiet_bind.
  - destruct (is_sync c f); [apply q_sync_methods|apply q_plain_methods].
  - intros ms _. q.
Qed.
Lemma q_prepare : quiet (prepare_field c f).
Proof.
  apply quiet_bind; [apply q_default|intros]. apply quiet_bind; [apply q_methods|intros].
  apply quiet_done, quiet_oou, oou_type.
Qed.
Lemma q_build : quiet (build_step c f).
Proof.
  unfold build_step. fold g. pose proof (oou_build c f (not_bare f I)) as O.
  unfold field_build_value in O. fold g in O. destruct (is_sync c f) eqn:S; [|apply quiet_oou, O].
  unfold sync_build. fold g. apply quiet_bind; [|intros; apply quiet_bind; [q|intros; apply quiet_oou, O]].
  apply quiet_oou. unfold sync_type. apply oou_bind; [apply oou_wto|intros; apply oou_ok].
Qed.
Lemma q_from : quiet (from_shadow_step c f).
Proof.
  unfold from_shadow_step. fold g. pose proof (oou_from_shadow c f) as O.
  unfold field_from_shadow in O. fold g in O. destruct (is_sync c f) eqn:S; [|apply quiet_oou, O].
  apply q_sync_wrap. discriminate.
Qed.
Lemma q_attribute : forall n, is_serde c f = true -> quiet (serde_attribute_step c f n).
Proof.
  intros n K. unfold serde_attribute_step. apply quiet_when. intros _. apply quiet_bind.
  - destruct (f_serde f) as [w|] eqn:W; [|q]. apply quiet_when. intros H. unfold has_serde_default in H.
    destruct (se_default w) as [d|] eqn:D; [|discriminate]. cbn [gunwrap gbind].
    apply quiet_when. intros V. apply quiet_done.
    assert (C : code_default (f_serde f)).
    { unfold defarg_is_true in H. apply negb_true_iff in H. apply andb_true_iff in V. destruct V as [V S].
      apply negb_true_iff in S. destruct (d_value d) as [v|] eqn:VV; [|discriminate].
      exists w, d, v. rewrite W. auto. }
    assert (N : In f (c_input_fields c)).
    { unfold all_fields in I. apply in_app_or in I. destruct I as [J|J]; [|exact J]. exfalso.
      unfold extra_fields in J. destruct (s_is_ref_counted (c_args c)); [|destruct J].
      destruct (myself_field c); [|destruct J]. destruct J as [<-|[]]. discriminate. }
    destruct (nr_field c (ok_raw c ok) f N C) as [A B].
    destruct (field_default_fn_ok c f n A B) as (i & ->). discriminate.
  - intros _ _. destruct (f_base_name_of f) as [b|] eqn:B; [|q]. apply quiet_done.
    apply given_value in B. apply (fn_rename f (all_names_ok f I)) in B.
    unfold ident_new. apply ident_text_word in B. rewrite B. discriminate.
Qed.
End F.

Lemma q_shadow_ident : quiet (gdone (shadow_ident_of c)).
Proof. destruct (shadow_ident_ok c (ok_struct c ok)) as (n & -> & _). discriminate. Qed.
Lemma serde_given : s_is_serde (c_args c) = true -> exists w, s_serde (c_args c) = Some w.
Proof. unfold s_is_serde. destruct (s_serde (c_args c)); [eauto|discriminate]. Qed.

Lemma default_word : forall w, s_serde (c_args c) = Some w -> any_default (Some w) ->
  exists s, shadow_ident_of c = GOk s /\ word s.
Proof.
  intros w W A. unfold shadow_ident_of, shadow_name_of. rewrite W.
  destruct (obind (se_shadow_name w) strarg_value) as [n|] eqn:E.
  - assert (G : given_string (se_shadow_name w) n) by (apply given_value; exact E).
    pose proof (nr_shadow c (ok_raw c ok) w n W A G) as N. exists n.
    split; [apply format_identifier; left; exact N|exact N].
  - assert (T : ident_text ("__" ++ fragment (c_ident c) ++ "Shadow") = true).
    { apply ident_text_app; [reflexivity|]. rewrite ident_chars_app.
      rewrite (ident_text_chars _ (fragment_text _ (sn_ident c (ok_struct c ok)))). reflexivity. }
    eexists. split; [apply format_text, T|apply ident_text_word, T].
Qed.
Lemma q_shadow_struct : quiet (shadow_struct_step path assignment c).
Proof.
  apply quiet_when. intros R. destruct (serde_given R) as (w & W). rewrite W. cbn [gunwrap gbind].
  destruct (shadow_ident_ok c (ok_struct c ok)) as (s & E & _). rewrite E. cbn [gbind].
  unfold shadow_default_step. rewrite W. apply quiet_when. intros H. unfold has_serde_default in H.
  destruct (se_default w) as [d|] eqn:D; [|discriminate]. cbn [gunwrap gbind].
  destruct (d_value d) as [v|] eqn:V; [|apply quiet_ok].
  apply quiet_bind; [destruct (d_is_str d); [destruct (path v)|destruct (assignment v)]; discriminate|intros _ _].
  unfold defarg_is_true in H. apply negb_true_iff in H.
  assert (A : any_default (Some w)) by (exists w, d, v; auto).
  destruct (default_word w W A) as (s' & E' & N). apply quiet_done.
  destruct (shadow_default_fn_ok c (List.length (filter own_default_fn (shadow_input c))) s' E' N) as (i & ->). discriminate.
Qed.

Lemma origin_quiet : forall k r, origin path assignment c k r -> quiet r.
Proof.
  intros k r O. destruct O.
  - apply quiet_when. intros R. destruct (q_myself R) as (n & E).
    destruct (myself_ok c (ok_struct c ok) n E) as [_ ->]. discriminate.
  - apply q_prepare. assumption.
  - apply q_attribute; assumption.
  - apply quiet_when. intros R. destruct (serde_given R) as (w & ->). apply q_shadow_ident.
  - apply quiet_when. intros R. destruct (q_myself R) as (n & E).
    destruct (myself_ok c (ok_struct c ok) n E) as [-> ->].
    unfold s_is_ref_counted in R. destruct (s_rc (c_args c)); [discriminate|discriminate].
  - apply quiet_when. intros _. destruct (builder_ident_ok c (ok_struct c ok)) as [-> _]. discriminate.
  - apply q_shadow_struct.
  - apply q_shadow_ident.
  - apply quiet_done, q_from. assumption.
  - apply quiet_when. intros _. apply q_lazy_init. assumption.
  - destruct (builder_ident_ok c (ok_struct c ok)) as [-> _]. discriminate.
  - destruct (myself_field_ok c (ok_struct c ok)) as (o & ->). discriminate.
  - apply quiet_done, q_build. assumption.
Qed.
Lemma no_panic : exists es, expand path assignment c = GOk es.
Proof.
  apply run_quiet. intros n r J. apply steps_origin in J. apply (origin_quiet n r J).
Qed.
End Quiet.
