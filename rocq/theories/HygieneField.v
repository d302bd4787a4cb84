(** What the pieces of one field are (proofs for HygieneModel.v). *)
From Coq Require Import List Bool String.
From Verif Require Import ArgsModel CtxModel RustAst CommonGen PlainGen SyncGen StructGen CopyModel NameModel ItemModel
  BuilderProofs HygieneSpec HygieneModel HygieneWhen HygieneProofs.
Import ListNotations.
Open Scope string_scope.
Open Scope list_scope.


Section OneField.
Variable c : sctx.
Variable w : surroundings.
Variable f : field.
Variable g : fcfg.
Hypothesis G : g = cfg_of c f.
Hypothesis M : has_methods c f.

Ltac names := unfold fx_reader, fx_get_mut, fx_writer, fx_into in *.
Ltac inc := repeat (apply incl_cons; [unfold binders, reserved_inside, locals; names; simpl; auto 20|]); apply incl_nil_l.
Ltac notin := let K := fresh in intro K; simpl in K; names; intuition discriminate.
Ltac tm := repeat match goal with
  | |- all_tame _ _ (_ ++ _) => apply tame_app
  | |- all_tame _ _ [] => apply tame_nil
  | |- all_tame _ _ (_ :: _) => apply tame_cons
  | |- all_tame _ _ (repeat_ [] _) => apply tame_repeat_nil
  end.
Ltac destr :=
  repeat match goal with
  | E : GErr _ = GOk _ |- _ => discriminate E
  | E : GOk _ = GOk ?l |- _ => injection E as E; subst l
  | E : context [if ?b then _ else _] |- _ => destruct b eqn:?
  end.
Ltac known :=
  repeat match goal with
  | E : ?b = true |- context [?b] => rewrite E
  | E : ?b = false |- context [?b] => rewrite E
  | |- context [if ?b then _ else _] => match b with context [String.eqb] => fail 1 | _ => destruct b eqn:? end
  | |- context [?b && _] => destruct b eqn:?
  end.
(** The flags in terms of the arguments. *)
Ltac back := rewrite G in *; clear G; simpl g_lazy in *; simpl g_optional in *; simpl g_fallible in *; simpl g_get in *;
  simpl g_get_mut in *; simpl g_set in *; simpl g_reader in *; simpl g_writer in *; simpl g_predicate in *; simpl g_lock in *;
  simpl g_clone in *; simpl g_copy in *; simpl g_inner_mut in *; simpl g_set_into in *; simpl g_async in *.
Ltac flag := repeat match goal with
  | E : ?b = true |- context [?b] => rewrite E
  | E : ?b = false |- context [?b] => rewrite E
  end; rewrite ?orb_true_r, ?andb_true_r; first [assumption | reflexivity].
Ltac why :=
  solve [ eapply asks_bool; [eassumption|flag|flag]
        | eapply asks_ok_sync; [eassumption|flag|flag|flag|flag|flag]
        | eapply asks_ok_plain; [eassumption|flag|flag|flag|flag]
        | eapply asks_some; [eassumption|flag|flag|flag|flag|flag]
        | apply struct_said
        | eapply opens_reader; [eassumption|flag|flag|flag]
        | eapply opens_getter; [eassumption|flag|flag|flag|flag]
        | eapply opens_inner; [eassumption|flag|flag|flag|flag]
        | eapply opens_get_mut; [eassumption|flag|flag|flag]
        | eapply opens_writer; [eassumption|flag|flag|flag]
        | eapply opens_into, converts_set; [eassumption|flag|flag] ].
Ltac leaf :=
  match goal with
  | |- tame _ _ (Says _ _ _) =>
      simpl; split; [inc|]; first [left; split; [reflexivity|solve [simpl; auto]] | right; split; [back; why|notin]]
  | |- tame _ _ (Binds _) => first [left; back; why | right; unfold locals; simpl; auto 20]
  | |- all_tame _ _ (repeat_ _ _) =>
      apply tame_repeat; [inc|];
      let n := fresh "n" in let I := fresh "I" in let J := fresh "J" in
      intros n I J; simpl in J; names;
      repeat (destruct J as [<-|J]; [|]); try contradiction;
      first [ left; solve [back; eapply covers_type; [eapply converts_set; [eassumption|flag|flag]|exact I]]
            | right; split; [reflexivity|split; [back; why|solve [left; eexists; exact I | right; exact I]]]]
  end.

Definition gen_tame (syn : bool) (r : gres (list mdecl)) : Prop :=
  forall ms, r = GOk ms -> all_tame c w
    (flat_map (fun m => method_pieces c w syn g (match m_kind m with KSetter => true | _ => false end) m) ms).
Ltac gen := destr; cbn; rewrite ?app_nil_r; known; try discriminate; cbn; rewrite ?app_nil_r; tm; leaf.

Lemma sync_accessor_tame : is_sync c f = true -> gen_tame true (sync_accessor g).
Proof.
  unfold gen_tame, sync_accessor, reader_method, fallible_return_type, gbind, await, mapped_read, cmethod, fallible_ok_return, fallible_shortcut,
    builder_self, maybe_optional, read_name. intros Y ms E. gen.
Qed.
Lemma sync_accessor_mut_tame : is_sync c f = true -> gen_tame true (sync_accessor_mut g).
Proof.
  unfold gen_tame, sync_accessor_mut, fallible_return_type, gbind, await, builder_self, maybe_optional, read_mut_name.
  intros Y ms E. gen.
Qed.
Lemma sync_reader_tame : is_sync c f = true -> gen_tame true (sync_reader g).
Proof.
  unfold gen_tame, sync_reader, reader_method, fallible_return_type, gbind, await, mapped_read, builder_self, read_name.
  intros Y ms E. gen.
Qed.
Lemma sync_writer_tame : is_sync c f = true -> gen_tame true (sync_writer g).
Proof.
  unfold gen_tame, sync_writer, wrapper_type_ok, gbind, await, maybe_optional. intros Y ms E. gen.
Qed.
Lemma sync_setter_tame : is_sync c f = true -> gen_tame true (sync_setter g).
Proof.
  unfold gen_tame, sync_setter, await, arg_ty, arg_val. intros Y ms E. gen.
Qed.
Lemma sync_clearer_tame : gen_tame true (sync_clearer g).
Proof. unfold gen_tame, sync_clearer, await. intros ms E. gen. Qed.
Lemma sync_predicate_tame : is_sync c f = true -> gen_tame true (sync_predicate g).
Proof. unfold gen_tame, sync_predicate, await, read_name. intros Y ms E. gen. Qed.

Lemma plain_accessor_tame : is_sync c f = false -> gen_tame false (plain_accessor g).
Proof.
  unfold gen_tame, plain_accessor, fallible_return_type, gbind, fallible_ok_return, fallible_shortcut, plain_lazy_init, get_or_init,
    builder_self, maybe_optional. intros Y ms E.
  destruct (g_inner_mut g) eqn:?, (g_lazy g) eqn:?; destr; destruct (g_mode g) eqn:?; cbn; rewrite ?app_nil_r; known; try discriminate; cbn; rewrite ?app_nil_r; tm; leaf.
Qed.
Lemma plain_accessor_mut_tame : is_sync c f = false -> gen_tame false (plain_accessor_mut g).
Proof.
  unfold gen_tame, plain_accessor_mut, fallible_return_type, gbind, fallible_ok_return, fallible_shortcut, plain_lazy_init, get_or_init,
    builder_self, maybe_optional. intros Y ms E.
  destruct (g_inner_mut g) eqn:?, (g_lazy g) eqn:?; gen.
Qed.
Lemma plain_setter_tame : is_sync c f = false -> gen_tame false (plain_setter g).
Proof.
  unfold gen_tame, plain_setter, arg_ty, arg_val, maybe_optional. intros Y ms E.
  destruct (g_inner_mut g) eqn:?, (g_lazy g) eqn:?; gen.
Qed.
Lemma plain_clearer_tame : gen_tame false (plain_clearer g).
Proof. unfold gen_tame, plain_clearer, maybe_optional. intros ms E. gen. Qed.
Lemma plain_predicate_tame : is_sync c f = false -> gen_tame false (plain_predicate g).
Proof.
  unfold gen_tame, plain_predicate. intros Y ms E.
  destruct (g_predicate g) eqn:P, (g_lazy g) eqn:L, (g_optional g) eqn:O; simpl in E; gen.
Qed.
Lemma field_builder_tame syn m : needs_builder_struct c = true -> field_builder g = Some m ->
  all_tame c w (method_pieces c w syn g false m).
Proof.
  unfold field_builder, arg_ty, arg_val. intros B E.
  destruct (g_forced g || g_builder g) eqn:N; [|discriminate]. injection E as <-.
  assert (X : g_build_into g = true -> converts c f).
  { intro X. rewrite G in *. apply converts_build; assumption. }
  assert (L : forall ret b, lifetime_of syn g
    (mk_mdecl KBuilder (g_name g KBuilder) "pub" (g_attrs g KBuilder) false SOwn ret TSelf b) = []).
  { intros. unfold lifetime_of. simpl. destruct syn; reflexivity. }
  unfold method_pieces, generics_of. rewrite L. clear L.
  destruct (g_build_into g) eqn:I; cbn; rewrite ?app_nil_r; tm.
  all: try solve [right; unfold locals; simpl; auto 20].
  all: try solve [simpl; split; [inc|left; split; [reflexivity|simpl; auto]]].
  - left. apply (opens_into c f). auto.
  - apply tame_repeat; [inc|]. intros n J [<-|[]]. left. rewrite G in J. apply (covers_type c w f); auto.
Qed.

Lemma wrapper_tame : is_sync c f = true -> is_async c f = true -> is_lazy c f = true -> all_tame c w (wrapper_pieces w g).
Proof.
  intros Y A L. unfold wrapper_pieces. apply tame_cons.
  - simpl. split; [apply incl_nil_l|]. right. split; [eapply asks_send; eassumption | intros []].
  - tm. destruct (g_fallible g); tm.
Qed.

End OneField.

(** ** Emitted values *)
Section Values.
Variable c : sctx.
Variable w : surroundings.
Variable g : fcfg.
Let words := w_default w (g_ident g).

(** Only variables are bound, and only ours. *)
Definition vars (b : list name) : Prop := incl b binders /\ forall n, In n b -> fst n = Values.
(** The default of the field stands under [b]. *)
Definition holds (b : list name) : Prop :=
  g_default g <> None -> forall n, In n words -> In n b -> covers c w n.
Definition repr_tame (b : list name) (r : repr) : Prop :=
  match r with
  | RNone => True
  | RExact e | RVersatile e => all_tame c w (expr_pieces c words false b e)
  end.

Lemma vars_nil : vars [].
Proof. split; [apply incl_nil_l|intros n []]. Qed.
Lemma vars_cons x b : In (Values, x) binders -> vars b -> vars ((Values, x) :: b).
Proof.
  intros I [B V]. split; [apply incl_cons; assumption|]. intros n [<-|J]; [reflexivity|auto].
Qed.
Lemma struct_piece b : vars b -> tame c w (Says b (Types, c_ident c) Generated).
Proof.
  intros [J K]. simpl. split; [exact J|]. right. split; [apply struct_said|]. intro I. apply K in I. discriminate.
Qed.
Lemma bound_piece b x : vars b -> In (Values, x) b -> tame c w (Says b (Values, x) Bound).
Proof. intros [J _] I. simpl. auto. Qed.
Lemma default_tame b fixed : vars b -> holds b -> repr_tame b (field_default_value g fixed).
Proof.
  intros [B _] D. unfold field_default_value, repr_tame.
  destruct (g_default g) as [d|] eqn:E.
  - assert (X : all_tame c w (repeat_ b words)).
    { apply tame_repeat; [exact B|]. intros n I J. left. apply D; auto. congruence. }
    unfold default_expr. destruct (snd d); cbn; exact X.
  - destruct (g_lazy g || g_optional g); [exact I|]. apply tame_nil.
Qed.
Lemma plain_wrap_tame b r e : vars b -> repr_tame b r -> plain_value_wrap g r = GOk e ->
  all_tame c w (expr_pieces c words false b e).
Proof.
  intros V R E. unfold plain_value_wrap in E.
  destruct r as [|v|v]; simpl in R;
    repeat match goal with E : context [if ?b then _ else _] |- _ => destruct b end;
    try discriminate E; injection E as <-; cbn; first [exact R|apply tame_nil].
Qed.
Lemma sync_wrap_tame b r e : vars b -> repr_tame b r -> sync_value_wrap g r = GOk e ->
  all_tame c w (expr_pieces c words false b e).
Proof.
  intros V R E. unfold sync_value_wrap, wrap_builder in E.
  set (x := match r with RNone => _ | RExact _ => _ | RVersatile _ => _ end) in E.
  assert (X : all_tame c w (expr_pieces c words false b x)).
  { unfold x. destruct r as [|v|v]; simpl in R; [apply tame_nil|exact R|].
    destruct (g_optional g || g_lazy g); cbn; exact R. }
  clearbody x. destruct (g_lazy g).
  - unfold gbind in E. destruct (sync_type g) as [t|m|m]; [|discriminate E|discriminate E].
    destruct (wrapper_type_ok g) as [t'|m|m]; [|discriminate E|discriminate E]. injection E as <-.
    cbn. apply tame_cons; [apply struct_piece; exact V|]. apply tame_cons; [apply struct_piece; exact V|exact X].
  - destruct (negb (g_optional g) && _); [discriminate E|]. injection E as <-. destruct (g_lock g); cbn; exact X.
Qed.
Lemma for_set_tame b wrap def e : vars b ->
  (forall b r e, vars b -> repr_tame b r -> wrap r = GOk e -> all_tame c w (expr_pieces c words false b e)) ->
  (forall d, def = GOk d -> all_tame c w (expr_pieces c words false b d)) ->
  value_for_set g wrap def = GOk e -> all_tame c w (expr_pieces c words false b e).
Proof.
  intros V W D E. unfold value_for_set, gbind in E.
  assert (X : vars ((Values, "field_manual_value") :: b)).
  { apply vars_cons; [unfold binders, reserved_inside, locals; simpl; auto 20|exact V]. }
  assert (Y : forall manual, wrap (RVersatile (EVar "field_manual_value")) = GOk manual ->
    all_tame c w (expr_pieces c words false ((Values, "field_manual_value") :: b) manual)).
  { intros manual K. apply (W _ _ _ X) in K; [exact K|]. cbn. apply tame_cons; [|apply tame_nil].
    apply bound_piece; [exact X|left; reflexivity]. }
  assert (Z : forall alt manual, wrap (RVersatile (EVar "field_manual_value")) = GOk manual ->
    all_tame c w (expr_pieces c words false b alt) ->
    all_tame c w (expr_pieces c words false b (EIfSome "field_manual_value" (EM0 (EFld "self") MTake) manual alt))).
  { intros alt manual K A. cbn. apply tame_cons; [right; unfold locals; simpl; auto 20|].
    apply tame_app; [exact (Y _ K)|exact A]. }
  destruct (g_has_default g).
  - destruct def as [d|m|m]; [|discriminate E|discriminate E]. simpl in E.
    destruct (wrap (RVersatile (EVar "field_manual_value"))) as [manual|m|m] eqn:K; [|discriminate E|discriminate E].
    injection E as <-. apply Z; auto.
  - destruct (g_optional g && negb (g_required g)).
    + destruct (wrap (RExact (EC0 PNone))) as [d|m|m] eqn:K'; [|discriminate E|discriminate E]. simpl in E.
      destruct (wrap (RVersatile (EVar "field_manual_value"))) as [manual|m|m] eqn:K; [|discriminate E|discriminate E].
      injection E as <-. apply Z; [reflexivity|]. apply (W _ _ _ V) in K'; [exact K'|apply tame_nil].
    + apply (W _ _ _ V) in E; [exact E|apply tame_nil].
Qed.

Lemma plain_default_tame b e : vars b -> holds b -> plain_default_wrap g = GOk e ->
  all_tame c w (expr_pieces c words false b e).
Proof. intros V D. apply plain_wrap_tame; [exact V|apply default_tame; assumption]. Qed.
Lemma sync_default_tame b e : vars b -> holds b -> sync_default_wrap g = GOk e ->
  all_tame c w (expr_pieces c words false b e).
Proof. intros V D. apply sync_wrap_tame; [exact V|apply default_tame; assumption]. Qed.

Lemma plain_build_tame b e : vars b -> holds b -> plain_builder_value g = GOk e ->
  all_tame c w (expr_pieces c words false b e).
Proof.
  intros V D E. unfold plain_builder_value, gbind in E.
  destruct (plain_default_wrap g) as [d|m|m] eqn:K; [|discriminate E|discriminate E].
  assert (T : all_tame c w (expr_pieces c words false b d)) by (apply plain_default_tame; assumption).
  destruct (negb (g_forced g) && negb (g_builder g)); [injection E as <-; exact T|].
  destruct (g_lazy g); [injection E as <-; cbn; exact T|].
  destruct (g_optional g && negb (g_required g)).
  - injection E as <-. destruct (g_inner_mut g); cbn; exact T.
  - revert E. apply for_set_tame; [exact V|intros; eapply plain_wrap_tame; eassumption|].
    intros d' E. injection E as <-. exact T.
Qed.
Lemma sync_build_tame b e : vars b -> holds b -> sync_builder_value g = GOk e ->
  all_tame c w (expr_pieces c words false b e).
Proof.
  intros V D E. unfold sync_builder_value, gbind in E.
  destruct (sync_type g) as [t|m|m]; [|discriminate E|discriminate E].
  set (x := if g_has_default g then _ else _) in E.
  assert (T : forall h, x = GOk h -> all_tame c w (expr_pieces c words false b (h (EM0 (EFld "self") MTake)))).
  { intros h K. unfold x in K. destruct (g_has_default g); [|injection K as <-; apply tame_nil].
    pose proof (default_tame b true V D) as R. destruct (field_default_value g true) as [|d|d]; [discriminate K| |];
      simpl in K, R; injection K as <-; destruct (g_optional g || g_lazy g); cbn; exact R. }
  destruct x as [h|m|m]; [|discriminate E|discriminate E]. specialize (T h eq_refl).
  assert (F : value_for_set g (sync_value_wrap g) (sync_default_wrap g) = GOk e ->
    all_tame c w (expr_pieces c words false b e)).
  { apply for_set_tame; [exact V|intros; eapply sync_wrap_tame; eassumption|]. intros. apply sync_default_tame; assumption. }
  destruct (negb (g_forced g) && negb (g_builder g)); [revert E; apply sync_default_tame; assumption|].
  destruct (g_lazy g).
  - unfold wrap_builder, gbind in E. destruct (wrapper_type_ok g) as [t'|m|m]; [|discriminate E|discriminate E].
    injection E as <-. cbn. apply tame_cons; [apply struct_piece; exact V|].
    apply tame_cons; [apply struct_piece; exact V|exact T].
  - destruct (g_lock g); [exact (F E)|]. destruct (g_optional g); [injection E as <-; exact T|exact (F E)].
Qed.
Lemma plain_document_tame b e : vars b -> In (Values, "__shadow") b -> (serde_optional g = true -> holds b) ->
  plain_from_shadow g = GOk e -> all_tame c w (expr_pieces c words false b e).
Proof.
  intros V S D E. unfold plain_from_shadow, gbind in E.
  assert (P : all_tame c w (expr_pieces c words false b (EFld "__shadow"))).
  { cbn. apply tame_cons; [apply bound_piece; assumption|apply tame_nil]. }
  destruct (serde_optional g).
  - destruct (plain_default_wrap g) as [d|m|m] eqn:K; [|discriminate E|discriminate E].
    destruct (plain_value_wrap g (RVersatile (EVar "v"))) as [v|m|m] eqn:J; [|discriminate E|discriminate E].
    injection E as <-. 
    assert (X : vars ((Values, "v") :: b)).
    { apply vars_cons; [unfold binders, reserved_inside, locals; simpl; auto 20|exact V]. }
    cbn. apply tame_cons; [apply bound_piece; assumption|].
    apply tame_app; [apply plain_default_tame; auto|].
    apply tame_cons; [right; unfold locals; simpl; auto 20|].
    apply (plain_wrap_tame _ _ _ X) in J; [exact J|]. cbn. apply tame_cons; [|apply tame_nil].
    apply bound_piece; [exact X|left; reflexivity].
  - destruct (g_inner_mut g); [revert E; apply plain_wrap_tame; [exact V|exact P]|injection E as <-; exact P].
Qed.
Lemma sync_document_tame b e : vars b -> In (Values, "__shadow") b ->
  sync_from_shadow g = GOk e -> all_tame c w (expr_pieces c words false b e).
Proof.
  intros V S. apply sync_wrap_tame; [exact V|]. cbn. apply tame_cons; [apply bound_piece; assumption|apply tame_nil].
Qed.
Lemma shadow_default_tame : all_tame c w (expr_pieces c words false [] (shadow_default g)).
Proof.
  assert (D : holds []) by (intros _ n _ []).
  pose proof (default_tame [] true vars_nil D) as R. unfold shadow_default.
  destruct (field_default_value g true) as [|e|e]; destruct (serde_optional g); cbn in *; first [exact R|apply tame_nil].
Qed.
End Values.
