(** Every case of HygieneWhen.v is there in the pieces (proofs for HygieneModel.v). *)
From Coq Require Import List Bool String.
From Verif Require Import ArgsModel CtxModel RustAst CommonGen PlainGen SyncGen StructGen CopyModel NameModel ItemModel
  BuilderProofs HygieneSpec HygieneModel HygieneWhen HygieneProofs HygieneStruct.
Import ListNotations.
Open Scope string_scope.
Open Scope list_scope.

Definition has (P : piece -> Prop) (l : list piece) : Prop := exists p, In p l /\ P p.
Lemma has_l P a b : has P a -> has P (a ++ b).
Proof. intros [p [I H]]. exists p. rewrite in_app_iff. auto. Qed.
Lemma has_r P a b : has P b -> has P (a ++ b).
Proof. intros [p [I H]]. exists p. rewrite in_app_iff. auto. Qed.
Lemma has_here (P : piece -> Prop) p l : P p -> has P (p :: l).
Proof. intro H. exists p. simpl. auto. Qed.
Lemma has_there P p l : has P l -> has P (p :: l).
Proof. intros [q [I H]]. exists q. simpl. auto. Qed.
Lemma has_flat {A} P (g : A -> list piece) l x : In x l -> has P (g x) -> has P (flat_map g l).
Proof. intros I [p [J H]]. exists p. rewrite in_flat_map. split; [exists x; auto|exact H]. Qed.
Definition said (n : name) (m : meaning) (p : piece) : Prop := exists b, p = Says b n m.
Definition bound (n : name) (p : piece) : Prop := p = Binds n.
Definition hidden (n : name) (p : piece) : Prop := exists b, p = Repeats b n /\ In n b.
Lemma has_repeat n b l : In n l -> In n b -> has (hidden n) (repeat_ b l).
Proof.
  intros I J. exists (Repeats b n). split; [apply in_map; exact I|]. exists b. auto.
Qed.

Ltac here := first [ solve [eexists; reflexivity] | reflexivity | solve [eexists; split; [reflexivity|simpl; auto 20]] ].
Ltac seek := lazymatch goal with
  | |- has _ (_ ++ _) => solve [apply has_l; seek | apply has_r; seek]
  | |- has _ (_ :: _) => solve [apply has_here; here | apply has_there; seek]
  | |- has (hidden _) (repeat_ _ _) => apply has_repeat; [assumption|simpl; auto 20]
  end.

Section Converse.
Variable c : sctx.
Variable w : surroundings.
Hypothesis OK : forall f, In f (all_fields c) -> exists ms, field_methods c f = GOk ms.

Lemma at_field f P : In f (all_fields c) -> has P (field_pieces c w f) -> has P (pieces c w).
Proof. intros I H. unfold pieces. apply has_r, has_r, has_l. eapply has_flat; eassumption. Qed.
Lemma at_method f ms m P : In f (all_fields c) -> field_methods c f = GOk ms -> In m ms ->
  has P (method_pieces c w (is_sync c f) (cfg_of c f) (match m_kind m with KSetter => true | _ => false end) m) ->
  has P (pieces c w).
Proof.
  intros I E J H. apply (at_field f); [exact I|]. unfold field_pieces. rewrite E. apply has_l.
  exact (has_flat P (fun m => method_pieces c w (is_sync c f) (cfg_of c f)
    (match m_kind m with KSetter => true | _ => false end) m) ms m J H).
Qed.

(** The methods of a field, one generator at a time. *)
Definition sync_parts (g : fcfg) : list (gres (list mdecl)) :=
  [sync_accessor g; sync_accessor_mut g; sync_reader g; sync_writer g; sync_setter g; sync_clearer g; sync_predicate g].
Definition plain_parts (g : fcfg) : list (gres (list mdecl)) :=
  [plain_accessor g; plain_accessor_mut g; plain_setter g; plain_clearer g; plain_predicate g].
Lemma sync_part f r : has_methods c f -> is_sync c f = true -> In r (sync_parts (cfg_of c f)) ->
  exists l ms, r = GOk l /\ field_methods c f = GOk ms /\ incl l ms.
Proof.
  intros [I K] Y J. destruct (OK f I) as [ms E]. pose proof E as E0. unfold field_methods in E. rewrite Y in E.
  unfold sync_methods, gbind in E. replace (g_skip (cfg_of c f)) with false in E by (symmetry; exact K).
  unfold sync_parts in J.
  destruct (sync_accessor _) eqn:E1; try discriminate E. destruct (sync_accessor_mut _) eqn:E2; try discriminate E.
  destruct (sync_reader _) eqn:E3; try discriminate E. destruct (sync_writer _) eqn:E4; try discriminate E.
  destruct (sync_setter _) eqn:E5; try discriminate E. destruct (sync_clearer _) eqn:E6; try discriminate E.
  destruct (sync_predicate _) eqn:E7; try discriminate E.
  destruct (if g_lazy _ && _ then _ else _); try discriminate E. injection E as E. rewrite <- E in E0. simpl in J.
  repeat (destruct J as [J|J]; [subst r; eexists _, _; split; [reflexivity|split; [exact E0|]];
    intros x X; rewrite !in_app_iff; auto 20|]). destruct J.
Qed.
Lemma plain_part f r : has_methods c f -> is_sync c f = false -> In r (plain_parts (cfg_of c f)) ->
  exists l ms, r = GOk l /\ field_methods c f = GOk ms /\ incl l ms.
Proof.
  intros [I K] Y J. destruct (OK f I) as [ms E]. pose proof E as E0. unfold field_methods in E. rewrite Y in E.
  unfold plain_methods, gbind in E. replace (g_skip (cfg_of c f)) with false in E by (symmetry; exact K).
  unfold plain_parts in J.
  destruct (plain_accessor _) eqn:E1; try discriminate E. destruct (plain_accessor_mut _) eqn:E2; try discriminate E.
  destruct (plain_setter _) eqn:E5; try discriminate E. destruct (plain_clearer _) eqn:E6; try discriminate E.
  destruct (plain_predicate _) eqn:E7; try discriminate E. injection E as E. rewrite <- E in E0. simpl in J.
  repeat (destruct J as [J|J]; [subst r; eexists _, _; split; [reflexivity|split; [exact E0|]];
    intros x X; rewrite !in_app_iff; auto 20|]). destruct J.
Qed.
Lemma at_sync f r P : has_methods c f -> is_sync c f = true -> In r (sync_parts (cfg_of c f)) ->
  (forall l, r = GOk l -> has P (flat_map (fun m => method_pieces c w true (cfg_of c f)
     (match m_kind m with KSetter => true | _ => false end) m) l)) -> has P (pieces c w).
Proof.
  intros M Y J H. destruct (sync_part f r M Y J) as [l [ms [E [F X]]]]. specialize (H l E). destruct H as [p [I Q]].
  apply in_flat_map in I. destruct I as [m [I Z]]. apply (at_method f ms m P (proj1 M) F (X m I)). rewrite Y. exists p. auto.
Qed.
Lemma at_plain f r P : has_methods c f -> is_sync c f = false -> In r (plain_parts (cfg_of c f)) ->
  (forall l, r = GOk l -> has P (flat_map (fun m => method_pieces c w false (cfg_of c f)
     (match m_kind m with KSetter => true | _ => false end) m) l)) -> has P (pieces c w).
Proof.
  intros M Y J H. destruct (plain_part f r M Y J) as [l [ms [E [F X]]]]. specialize (H l E). destruct H as [p [I Q]].
  apply in_flat_map in I. destruct I as [m [I Z]]. apply (at_method f ms m P (proj1 M) F (X m I)). rewrite Y. exists p. auto.
Qed.

Lemma says_bool f : has_methods c f -> needs_predicate c f = true ->
  is_sync c f || is_lazy c f || is_optional c f = true -> has (said (Types, "bool") Std) (pieces c w).
Proof.
  intros M P Q. destruct (is_sync c f) eqn:Y.
  - apply (at_sync f (sync_predicate (cfg_of c f))); [exact M|exact Y|simpl; auto 20|].
    assert (P' : g_predicate (cfg_of c f) = true) by exact P.
    generalize dependent (cfg_of c f). intros g P' l E. unfold sync_predicate in E. rewrite P' in E.
    destruct (g_lazy g); [|destruct (g_lock g)]; injection E as <-; cbn; seek.
  - apply (at_plain f (plain_predicate (cfg_of c f))); [exact M|exact Y|simpl; auto 20|].
    assert (P' : g_predicate (cfg_of c f) = true) by exact P.
    assert (Q' : g_lazy (cfg_of c f) || g_optional (cfg_of c f) = true) by exact Q.
    generalize dependent (cfg_of c f). intros g P' Q' l E. unfold plain_predicate in E. rewrite P', Q' in E.
    destruct (g_lazy g); injection E as <-; cbn; seek.
Qed.
Lemma says_ok_sync f : has_methods c f -> is_sync c f = true -> is_lazy c f = true -> is_fallible c f = true ->
  needs_accessor c f = true -> is_clone c f || is_copy c f = true -> has (said (Values, "Ok") Std) (pieces c w).
Proof.
  intros M Y L F A K. apply (at_sync f (sync_accessor (cfg_of c f))); [exact M|exact Y|simpl; auto 20|].
  assert (L' : g_lazy (cfg_of c f) = true) by exact L. assert (F' : g_fallible (cfg_of c f) = true) by exact F.
  assert (A' : g_get (cfg_of c f) = true) by exact A.
  assert (K' : g_clone (cfg_of c f) || g_copy (cfg_of c f) = true) by exact K.
  generalize dependent (cfg_of c f). clear M. intros g L' F' A' K' l E. unfold sync_accessor in E. rewrite A', K', L' in E.
  unfold fallible_return_type, fallible_ok_return, fallible_shortcut, gbind in E. rewrite F' in E.
  destruct (g_error_known g); [|discriminate E]. injection E as <-. cbn. rewrite ?app_nil_r.
  destruct (g_copy g); cbn; destruct (g_async g); cbn; seek.
Qed.
Lemma says_ok_plain f : has_methods c f -> is_sync c f = false -> is_lazy c f = true -> is_fallible c f = true ->
  needs_accessor c f || needs_accessor_mut c f = true -> has (said (Values, "Ok") Std) (pieces c w).
Proof.
  intros M Y L F A. 
  assert (L' : g_lazy (cfg_of c f) = true) by exact L. assert (F' : g_fallible (cfg_of c f) = true) by exact F.
  apply orb_prop in A. destruct A as [A|A].
  - apply (at_plain f (plain_accessor (cfg_of c f))); [exact M|exact Y|simpl; auto 20|].
    assert (A' : g_get (cfg_of c f) = true) by exact A.
    generalize dependent (cfg_of c f). clear M. intros g L' F' A' l E. unfold plain_accessor in E. rewrite A', L' in E.
    unfold fallible_return_type, fallible_ok_return, fallible_shortcut, gbind in E. rewrite F' in E.
    destruct (g_error_known g); [|discriminate E]. injection E as <-. cbn. rewrite ?app_nil_r.
    destruct (g_mode g); cbn; seek.
  - apply (at_plain f (plain_accessor_mut (cfg_of c f))); [exact M|exact Y|simpl; auto 20|].
    assert (A' : g_get_mut (cfg_of c f) = true) by exact A.
    generalize dependent (cfg_of c f). clear M. intros g L' F' A' l E. unfold plain_accessor_mut in E. rewrite A', L' in E.
    unfold fallible_return_type, fallible_ok_return, fallible_shortcut, gbind in E. rewrite F' in E.
    destruct (g_error_known g); [|discriminate E]. injection E as <-. cbn. rewrite ?app_nil_r. seek.
Qed.
Lemma says_some f : has_methods c f -> is_sync c f = false -> is_lazy c f = false -> is_inner_mut c f = true ->
  is_optional c f = true -> needs_setter c f = true -> has (said (Values, "Some") Std) (pieces c w).
Proof.
  intros M Y L I O A. apply (at_plain f (plain_setter (cfg_of c f))); [exact M|exact Y|simpl; auto 20|].
  assert (L' : g_lazy (cfg_of c f) = false) by exact L. assert (I' : g_inner_mut (cfg_of c f) = true) by exact I.
  assert (O' : g_optional (cfg_of c f) = true) by exact O. assert (A' : g_set (cfg_of c f) = true) by exact A.
  generalize dependent (cfg_of c f). clear M. intros g L' I' O' A' l E. unfold plain_setter in E. rewrite A', L', I' in E.
  rewrite ?O' in E. injection E as <-. unfold maybe_optional. rewrite O'. unfold arg_val, arg_ty.
  destruct (g_set_into g); cbn; rewrite ?O'; cbn; seek.
Qed.

Lemma opens_bound n : opens c n -> has (bound n) (pieces c w).
Proof.
  intro O. destruct O as [f M Y A B|f M Y A B C|f M Y L I A|f M Y L A|f M Y L A|f C].
  - apply (at_sync f (sync_reader (cfg_of c f))); [exact M|exact Y|simpl; auto 20|].
    assert (A' : g_reader (cfg_of c f) = true) by exact A.
    assert (B' : g_lazy (cfg_of c f) || g_optional (cfg_of c f) = true) by exact B.
    generalize dependent (cfg_of c f). clear. intros g A' B' l E. unfold sync_reader, reader_method, mapped_read, fallible_return_type, gbind in E.
    rewrite A' in E. destruct (g_lazy g) eqn:L.
    + destruct (g_async g), (g_fallible g); [destruct (g_error_known g); [|discriminate E]| |destruct (g_error_known g); [|discriminate E]|];
        injection E as <-; cbn; rewrite ?L; cbn; seek.
    + simpl in B'. unfold maybe_optional in E. rewrite B' in E. injection E as <-. cbn. seek.
  - apply (at_sync f (sync_accessor (cfg_of c f))); [exact M|exact Y|simpl; auto 20|].
    assert (A' : g_get (cfg_of c f) = true) by exact A.
    assert (B' : g_clone (cfg_of c f) || g_copy (cfg_of c f) = false) by exact B.
    assert (C' : g_lazy (cfg_of c f) || g_lock (cfg_of c f) && g_optional (cfg_of c f) = true) by exact C.
    generalize dependent (cfg_of c f). clear. intros g A' B' C' l E. unfold sync_accessor, reader_method, mapped_read, fallible_return_type, gbind in E.
    rewrite A', B' in E. destruct (g_lazy g) eqn:L.
    + simpl in E. destruct (g_async g), (g_fallible g); [destruct (g_error_known g); [|discriminate E]| |destruct (g_error_known g); [|discriminate E]|];
        injection E as <-; cbn; rewrite ?L; cbn; seek.
    + simpl in C'. apply andb_prop in C'. destruct C' as [K O]. unfold maybe_optional in E. rewrite O, K in E. injection E as <-. cbn. seek.
  - apply orb_prop in A. 
    assert (L' : g_lazy (cfg_of c f) = false) by exact L. assert (I' : g_inner_mut (cfg_of c f) = true) by exact I.
    destruct A as [A|A].
    + apply (at_plain f (plain_accessor (cfg_of c f))); [exact M|exact Y|simpl; auto 20|].
      assert (A' : g_get (cfg_of c f) = true) by exact A.
      generalize dependent (cfg_of c f). clear. intros g L' I' A' l E. unfold plain_accessor in E.
      rewrite A', L', I' in E.
      destruct (g_clone g || g_copy g); injection E as <-; unfold method_pieces, generics_of, lifetime_of; simpl; rewrite I', L'; cbn; seek.
    + apply (at_plain f (plain_accessor_mut (cfg_of c f))); [exact M|exact Y|simpl; auto 20|].
      assert (A' : g_get_mut (cfg_of c f) = true) by exact A.
      generalize dependent (cfg_of c f). clear. intros g L' I' A' l E. unfold plain_accessor_mut in E.
      rewrite A', L', I' in E.
      injection E as <-; unfold method_pieces, generics_of, lifetime_of; simpl; rewrite I', L'; cbn; seek.
  - apply (at_sync f (sync_accessor_mut (cfg_of c f))); [exact M|exact Y|simpl; auto 20|].
    assert (A' : g_get_mut (cfg_of c f) = true) by exact A. assert (L' : g_lazy (cfg_of c f) = true) by exact L.
    generalize dependent (cfg_of c f). clear. intros g A' L' l E. unfold sync_accessor_mut, fallible_return_type, gbind in E.
    rewrite A', L' in E. destruct (g_fallible g); [destruct (g_error_known g); [|discriminate E]|]; injection E as <-; cbn; seek.
  - apply (at_sync f (sync_writer (cfg_of c f))); [exact M|exact Y|simpl; auto 20|].
    assert (A' : g_writer (cfg_of c f) = true) by exact A. assert (L' : g_lazy (cfg_of c f) = true) by exact L.
    generalize dependent (cfg_of c f). clear. intros g A' L' l E. unfold sync_writer, gbind, wrapper_type_ok in E.
    rewrite A', L' in E.
    repeat match type of E with context [if ?b then _ else _] => destruct b end; try discriminate E; injection E as <-; cbn; seek.
  - destruct C as [M A B|N M A B].
    + destruct (is_sync c f) eqn:Y.
      * apply (at_sync f (sync_setter (cfg_of c f))); [exact M|exact Y|simpl; auto 20|].
        assert (A' : g_set (cfg_of c f) = true) by exact A. assert (B' : g_set_into (cfg_of c f) = true) by exact B.
        generalize dependent (cfg_of c f). clear. intros g A' B' l E. unfold sync_setter, arg_ty, arg_val in E.
        rewrite A', B' in E. 
        repeat match type of E with context [if ?b then _ else _] => destruct b end; injection E as <-;
          cbn; seek.
      * apply (at_plain f (plain_setter (cfg_of c f))); [exact M|exact Y|simpl; auto 20|].
        assert (A' : g_set (cfg_of c f) = true) by exact A. assert (B' : g_set_into (cfg_of c f) = true) by exact B.
        generalize dependent (cfg_of c f). clear. intros g A' B' l E. unfold plain_setter, arg_ty, arg_val in E.
        rewrite A', B' in E. 
        repeat match type of E with context [if ?b then _ else _] => destruct b end; injection E as <-;
          unfold method_pieces, generics_of; simpl; apply has_here; reflexivity.
    + unfold pieces. do 6 apply has_r. apply has_l. unfold builder_pieces. rewrite N. do 4 apply has_r. apply has_l.
      eapply has_flat; [apply input_has; exact M|].
      assert (A' : g_forced (cfg_of c f) || g_builder (cfg_of c f) = true) by exact A.
      assert (B' : g_build_into (cfg_of c f) = true) by exact B. cbv beta. clear - A' B'.
      generalize dependent (cfg_of c f). intros g A' B'. unfold field_builder. rewrite A', B'.
      unfold method_pieces, generics_of, lifetime_of. destruct (is_sync c f); simpl; apply has_here; reflexivity.
Qed.

Lemma at_decls P : has P (impl_pieces c) -> has P (pieces c w).
Proof. intro H. apply has_l. exact H. Qed.
Lemma at_extra P : has P (extra_pieces c) -> has P (pieces c w).
Proof. intro H. unfold pieces. do 3 apply has_r. apply has_l. exact H. Qed.
Lemma at_default P : has P (default_pieces c w) -> has P (pieces c w).
Proof. intro H. unfold pieces. do 4 apply has_r. apply has_l. exact H. Qed.
Lemma at_copy P : has P (copy_pieces c w) -> has P (pieces c w).
Proof. intro H. unfold pieces. do 5 apply has_r. apply has_l. exact H. Qed.
Lemma at_builder P : has P (builder_pieces c w) -> has P (pieces c w).
Proof. intro H. unfold pieces. do 6 apply has_r. apply has_l. exact H. Qed.
Lemma at_serde P : has P (serde_pieces c w) -> has P (pieces c w).
Proof. intro H. unfold pieces. do 7 apply has_r. exact H. Qed.
Lemma has_say n b m l : In n l -> has (said n m) (say b m l).
Proof. intro I. exists (Says b n m). split; [apply in_map with (f := fun n => Says b n m); exact I|exists b; reflexivity]. Qed.

Theorem asks_said n m : asks c n m -> has (said n m) (pieces c w).
Proof.
  intro A. destruct A.
  - apply at_decls. apply has_here. here.
  - unfold made in H. rewrite !in_app_iff in H. destruct H as [I|[I|I]].
    + apply at_decls. apply has_there. apply has_say. exact I.
    + apply at_extra. apply has_l. pose proof I as J. unfold builder_name in J.
      destruct (needs_builder_struct c); [apply has_say; exact I|destruct J].
    + apply at_serde. unfold serde_pieces. pose proof I as J. unfold shadow_name in J.
      destruct (s_is_serde (c_args c)) eqn:S; [|destruct J]. apply has_r, has_l, has_l, has_say. exact I.
  - apply at_default. unfold default_pieces, has_default_impl. rewrite H.
    destruct (all_fields c); [congruence|]. apply has_here. here.
  - eapply says_bool; eassumption.
  - destruct H as [I K]. apply (at_field f); [exact I|]. unfold field_pieces. destruct (OK f I) as [ms E]. rewrite E.
    unfold wrapped. rewrite H0, K, H2, H1. apply has_r, has_here. here.
  - apply at_copy. unfold copy_pieces.
    assert (I : In f (filter (fun f => needs_accessor c f && is_copy c f) (all_fields c))).
    { apply filter_In. rewrite H0, H1. auto. }
    destruct (filter _ _) as [|x l]; [destruct I|]. apply has_here. here.
  - apply at_builder. unfold builder_pieces. rewrite H. do 5 apply has_r. apply has_l, has_here. here.
  - eapply says_ok_sync; eassumption.
  - eapply says_ok_plain; eassumption.
  - apply at_builder. unfold builder_pieces. rewrite H. do 3 apply has_r. apply has_l.
    eapply has_flat; [apply input_has; eassumption|]. apply has_here. here.
  - eapply says_some; eassumption.
  - apply at_serde. unfold serde_pieces, derive_pieces. rewrite H, H0. apply has_l, has_l, has_here. here.
  - apply at_serde. unfold serde_pieces, derive_pieces. rewrite H, H0. apply has_l, has_r, has_here. here.
Qed.

(** What the user wrote stands under what the code binds. *)
Section Words.
Variable g : fcfg.
Variable n : name.
Let words := w_default w (g_ident g).
Variable b : list name.
Hypothesis I : In n words.
Hypothesis J : In n b.
Hypothesis D : g_default g <> None.
Hypothesis H : g_default g <> None -> g_has_default g = true.
Lemma default_hides fixed : exists e, field_default_value g fixed = RVersatile e /\ has (hidden n) (expr_pieces c words false b e).
Proof.
  unfold field_default_value. destruct (g_default g) as [d|]; [|congruence]. eexists. split; [reflexivity|].
  unfold default_expr. destruct (snd d); cbn; apply has_repeat; assumption.
Qed.
Lemma plain_wrap_hides v e : has (hidden n) (expr_pieces c words false b v) -> plain_value_wrap g (RVersatile v) = GOk e ->
  has (hidden n) (expr_pieces c words false b e).
Proof.
  intros X E. simpl in E. destruct (g_lazy g); [injection E as <-; exact X|].
  destruct (g_inner_mut g), (g_optional g); injection E as <-; exact X.
Qed.
Lemma sync_wrap_hides v e : has (hidden n) (expr_pieces c words false b v) -> sync_value_wrap g (RVersatile v) = GOk e ->
  has (hidden n) (expr_pieces c words false b e).
Proof.
  intros X E. unfold sync_value_wrap, wrap_builder, gbind in E. 
  destruct (g_lazy g).
  - destruct (sync_type g); try discriminate E. destruct (wrapper_type_ok g); try discriminate E. injection E as <-.
    destruct (g_optional g); simpl orb; cbn; do 2 apply has_there; exact X.
  - destruct (g_optional g), (g_lock g); simpl in E; injection E as <-; exact X.
Qed.
Lemma plain_default_hides e : plain_default_wrap g = GOk e -> has (hidden n) (expr_pieces c words false b e).
Proof.
  unfold plain_default_wrap. destruct (default_hides true) as [v [-> X]]. apply plain_wrap_hides. exact X.
Qed.
Lemma sync_default_hides e : sync_default_wrap g = GOk e -> has (hidden n) (expr_pieces c words false b e).
Proof.
  unfold sync_default_wrap. destruct (default_hides false) as [v [-> X]]. apply sync_wrap_hides. exact X.
Qed.
Lemma for_set_hides wrap def e :
  (forall d, def = GOk d -> has (hidden n) (expr_pieces c words false b d)) ->
  value_for_set g wrap def = GOk e -> has (hidden n) (expr_pieces c words false b e).
Proof.
  intros X E. unfold value_for_set, gbind in E. rewrite (H D) in E.
  destruct def as [d|m|m]; try discriminate E. simpl in E.
  destruct (wrap _) as [v|m|m]; try discriminate E. injection E as <-. cbn. apply has_there, has_r. apply X. reflexivity.
Qed.
Lemma plain_build_hides e : plain_builder_value g = GOk e -> has (hidden n) (expr_pieces c words false b e).
Proof.
  intro E. unfold plain_builder_value, gbind in E.
  destruct (plain_default_wrap g) as [d|m|m] eqn:K; try discriminate E.
  assert (T : has (hidden n) (expr_pieces c words false b d)) by (apply plain_default_hides; exact K).
  destruct (negb (g_forced g) && negb (g_builder g)); [injection E as <-; exact T|].
  destruct (g_lazy g); [injection E as <-; exact T|].
  destruct (g_optional g && negb (g_required g)).
  - injection E as <-. destruct (g_inner_mut g); exact T.
  - revert E. apply for_set_hides. intros d' E. injection E as <-. exact T.
Qed.
Lemma sync_build_hides e : sync_builder_value g = GOk e -> has (hidden n) (expr_pieces c words false b e).
Proof.
  intro E. unfold sync_builder_value, gbind in E. rewrite (H D) in E.
  destruct (sync_type g) as [t|m|m]; try discriminate E.
  destruct (default_hides true) as [v [V X]]. rewrite V in E. simpl in E.
  assert (F : value_for_set g (sync_value_wrap g) (sync_default_wrap g) = GOk e -> has (hidden n) (expr_pieces c words false b e)).
  { apply for_set_hides. apply sync_default_hides. }
  destruct (negb (g_forced g) && negb (g_builder g)); [revert E; apply sync_default_hides|].
  destruct (g_lazy g).
  - unfold wrap_builder, gbind in E. destruct (wrapper_type_ok g); try discriminate E. injection E as <-.
    rewrite orb_true_r. cbn. do 2 apply has_there. exact X.
  - destruct (g_lock g); [exact (F E)|]. destruct (g_optional g); [injection E as <-; exact X|exact (F E)].
Qed.
Lemma plain_document_hides e : serde_optional g = true -> plain_from_shadow g = GOk e ->
  has (hidden n) (expr_pieces c words false b e).
Proof.
  intros O E. unfold plain_from_shadow, gbind in E. rewrite O in E.
  destruct (plain_default_wrap g) as [d|m|m] eqn:K; try discriminate E.
  destruct (plain_value_wrap g _) as [v|m|m]; try discriminate E. injection E as <-. cbn.
  apply has_there, has_l. apply plain_default_hides. exact K.
Qed.
End Words.

Hypothesis BUILT : needs_builder_struct c = true -> forall f, has_methods c f -> exists e, field_build_value c f = GOk e.

Theorem covers_hidden n : covers c w n -> has (hidden n) (pieces c w).
Proof.
  intro C. destruct C as [f C I|f R N M D I|f S N M K L Y O D I].
  - destruct C as [M A B|N M A B].
    + destruct (is_sync c f) eqn:Y.
      * apply (at_sync f (sync_setter (cfg_of c f))); [exact M|exact Y|simpl; auto 20|].
        assert (A' : g_set (cfg_of c f) = true) by exact A. assert (B' : g_set_into (cfg_of c f) = true) by exact B.
        assert (I' : In fx_into (w_type w (g_ident (cfg_of c f)))) by exact I.
        generalize dependent (cfg_of c f). clear. intros g A' B' I' l E. unfold sync_setter, arg_ty, arg_val in E.
        rewrite A', B' in E. 
        repeat match type of E with context [if ?b then _ else _] => destruct b end; injection E as <-; cbn; seek.
      * apply (at_plain f (plain_setter (cfg_of c f))); [exact M|exact Y|simpl; auto 20|].
        assert (A' : g_set (cfg_of c f) = true) by exact A. assert (B' : g_set_into (cfg_of c f) = true) by exact B.
        assert (I' : In fx_into (w_type w (g_ident (cfg_of c f)))) by exact I.
        generalize dependent (cfg_of c f). clear. intros g A' B' I' l E. unfold plain_setter, arg_ty, arg_val in E.
        rewrite A', B' in E. 
        repeat match type of E with context [if ?b then _ else _] => destruct b end; injection E as <-; cbn; seek.
    + apply at_builder. unfold builder_pieces. rewrite N. do 4 apply has_r. apply has_l.
      eapply has_flat; [apply input_has; exact M|].
      assert (A' : g_forced (cfg_of c f) || g_builder (cfg_of c f) = true) by exact A.
      assert (B' : g_build_into (cfg_of c f) = true) by exact B.
      assert (I' : In fx_into (w_type w (g_ident (cfg_of c f)))) by exact I. cbv beta. clear - A' B' I'.
      generalize dependent (cfg_of c f). intros g A' B' I'. unfold field_builder. rewrite A', B'.
      unfold method_pieces, generics_of, lifetime_of. destruct (is_sync c f); cbn; seek.
  - apply at_builder. unfold builder_pieces. rewrite N. do 8 apply has_r.
    eapply has_flat; [apply input_has; exact M|]. destruct (BUILT N f M) as [e E]. unfold value_pieces. rewrite E.
    assert (J : In (Values, "me") (me c)) by (unfold me, rc; rewrite R; left; reflexivity).
    unfold field_build_value in E. destruct (is_sync c f).
    + refine (sync_build_hides (cfg_of c f) _ (me c) I J D (default_coherent f) e E).
    + refine (plain_build_hides (cfg_of c f) _ (me c) I J D (default_coherent f) e E).
  - apply at_serde. unfold serde_pieces. rewrite S. do 2 apply has_r. apply has_l. unfold from_pieces, from_shadow_emitted.
    rewrite S, N. simpl andb. cbv iota. do 3 apply has_r.
    apply has_flat with (x := f); [apply filter_In; rewrite K, L; auto|]. unfold field_from_shadow, value_pieces. rewrite Y.
    assert (O' : serde_optional (cfg_of c f) = true) by (rewrite orb_comm in O; exact O).
    assert (J : In (Values, "__shadow") (under "__shadow" [])) by (left; reflexivity).
    destruct (plain_from_shadow (cfg_of c f)) as [e|m|m] eqn:E.
    + refine (plain_document_hides (cfg_of c f) _ _ I J D (default_coherent f) e O' E).
    + exfalso. clear - E O' D. unfold plain_from_shadow, plain_default_wrap, field_default_value, gbind in E. rewrite O' in E.
      assert (D' : g_default (cfg_of c f) <> None) by exact D.
      destruct (g_default (cfg_of c f)); [|congruence]. simpl in E. revert E.
      destruct (is_lazy c f); discriminate.
    + exfalso. clear - E O' D. unfold plain_from_shadow, plain_default_wrap, field_default_value, gbind in E. rewrite O' in E.
      assert (D' : g_default (cfg_of c f) <> None) by exact D.
      destruct (g_default (cfg_of c f)); [|congruence]. simpl in E. revert E.
      destruct (is_lazy c f); discriminate.
Qed.
End Converse.
