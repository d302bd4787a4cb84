(** Lemmas about the identifiers the macros make. *)
From Coq Require DecimalString Decimal.
From Coq Require Import List Bool String Ascii Arith Lia.
From Verif Require Import ArgsModel CtxModel RustAst TokenModel NameModel MacroSpec.
Import ListNotations.
Open Scope string_scope.

(** ** Words *)
Definition letterb (a : ascii) : bool :=
  existsb (Ascii.eqb a) (list_ascii_of_string letters) || Nat.leb 128 (nat_of_ascii a).
Definition digitb (a : ascii) : bool := existsb (Ascii.eqb a) (list_ascii_of_string digits).

Lemma existsb_in : forall a l, existsb (Ascii.eqb a) l = true <-> In a l.
Proof.
  intros a l. rewrite existsb_exists. split.
  - intros (x & I & E). apply Ascii.eqb_eq in E. subst. exact I.
  - intros I. exists a. split; [exact I|apply Ascii.eqb_refl].
Qed.

Lemma letterb_spec : forall a, letterb a = true <-> letter a.
Proof.
  intros a. unfold letterb, letter. rewrite orb_true_iff, existsb_in, Nat.leb_le. tauto.
Qed.
Lemma digitb_spec : forall a, digitb a = true <-> digit a.
Proof. intros a. apply existsb_in. Qed.

Lemma ident_start_b : forall a, ident_start a = letterb a.
Proof. intros [[] [] [] [] [] [] [] []]; vm_compute; reflexivity. Qed.
Lemma ident_char_b : forall a, ident_char a = letterb a || digitb a.
Proof. intros [[] [] [] [] [] [] [] []]; vm_compute; reflexivity. Qed.

Lemma ident_chars_spec : forall s,
  ident_chars s = true <-> forall b, In b (list_ascii_of_string s) -> letter b \/ digit b.
Proof.
  induction s as [|a s IH]; simpl; [split; [intros _ b []|reflexivity]|].
  rewrite andb_true_iff, IH, ident_char_b, orb_true_iff, letterb_spec, digitb_spec.
  split.
  - intros [A B] b [<-|I]; auto.
  - intros A. split; intros; apply A; auto.
Qed.
Lemma ident_text_word : forall s, ident_text s = true <-> word s.
Proof.
  intros [|a s]; simpl.
  - split; [discriminate|intros (a & r & E & _); discriminate].
  - rewrite andb_true_iff, ident_chars_spec, ident_start_b, letterb_spec. split.
    + intros [A B]. exists a, s. auto.
    + intros (a' & r & E & A & B). injection E as <- <-. auto.
Qed.
Lemma ident_text_chars : forall s, ident_text s = true -> ident_chars s = true.
Proof.
  intros [|a s]; simpl; [auto|]. rewrite !andb_true_iff. unfold ident_char. intros [-> ->]. auto.
Qed.
Lemma ident_chars_app : forall a b, ident_chars (a ++ b) = ident_chars a && ident_chars b.
Proof. induction a as [|x a IH]; intros b; simpl; [reflexivity|]. rewrite IH, andb_assoc. reflexivity. Qed.
Lemma ident_text_app : forall a b, ident_text a = true -> ident_chars b = true -> ident_text (a ++ b) = true.
Proof.
  intros [|x a] b; simpl; [discriminate|]. rewrite !andb_true_iff, ident_chars_app, andb_true_iff. tauto.
Qed.
Lemma no_raw : forall s, ident_chars s = true -> raw_part s = None.
Proof.
  intros [|a [|b r]]; simpl; try reflexivity. rewrite !andb_true_iff. intros (_ & B & _).
  destruct (Ascii.eqb b "#") eqn:E; [|rewrite andb_false_r; reflexivity].
  apply Ascii.eqb_eq in E. subst b. discriminate.
Qed.
Lemma raw_part_raw : forall w, raw_part ("r#" ++ w) = Some w.
Proof. reflexivity. Qed.
Lemma format_text : forall s, ident_text s = true -> format_ident s = GOk s.
Proof.
  intros s T. unfold format_ident. rewrite (no_raw s (ident_text_chars s T)). unfold ident_new.
  rewrite T. reflexivity.
Qed.
Lemma not_in_raw : forall w, ~ In w ["_"; "super"; "self"; "Self"; "crate"] ->
  existsb (String.eqb w) ["_"; "super"; "self"; "Self"; "crate"] = false.
Proof.
  intros w N. destruct (existsb _ _) eqn:E; [|reflexivity]. exfalso. apply N.
  apply existsb_exists in E. destruct E as (x & I & Q). apply String.eqb_eq in Q. subst. exact I.
Qed.
Lemma format_identifier : forall s, identifier s -> format_ident s = GOk s.
Proof.
  intros s [W|(w & -> & W & N)].
  - apply format_text, ident_text_word, W.
  - unfold format_ident. rewrite raw_part_raw. unfold ident_new_raw.
    apply ident_text_word in W. rewrite W, (not_in_raw w N). reflexivity.
Qed.
Lemma fragment_text : forall s, identifier s -> ident_text (fragment s) = true.
Proof.
  intros s [W|(w & -> & W & _)]; apply ident_text_word in W; unfold fragment.
  - rewrite (no_raw s (ident_text_chars s W)). exact W.
  - exact W.
Qed.
Lemma fragment_word : forall s, word s -> fragment s = s.
Proof.
  intros s W. apply ident_text_word in W. unfold fragment.
  rewrite (no_raw s (ident_text_chars s W)). reflexivity.
Qed.
Lemma text_identifier : forall s, ident_text s = true -> identifier s.
Proof. intros s T. left. apply ident_text_word, T. Qed.

(** ** Names of a field's helpers *)
Lemma given_value : forall s n, match s with Some a => strarg_value a | None => None end = Some n <-> given_string s n.
Proof.
  intros [a|] n; unfold given_string, strarg_value; simpl.
  - split.
    + intros E. exists a. destruct (sa_off a); [discriminate|auto].
    + intros (a' & E & O & V). injection E as <-. rewrite O, V. reflexivity.
  - split; [discriminate|intros (a & E & _); discriminate].
Qed.

Lemma suffix_chars : forall k, ident_chars (unwrap_or (default_suffix k) "") = true.
Proof. intros []; reflexivity. Qed.
Lemma prefix_text : forall k p, default_prefix k = Some p -> ident_text p = true.
Proof. intros [] p E; try discriminate; injection E as <-; reflexivity. Qed.

Lemma base_ident_ok : forall f, field_names_ok f -> exists b, base_ident f = GOk b /\ identifier b.
Proof.
  intros f H. unfold base_ident. destruct (f_base_name_of f) as [n|] eqn:E.
  - apply given_value in E. apply (fn_rename f H) in E. exists n. split; [|left; exact E].
    unfold ident_new. apply ident_text_word in E. rewrite E. reflexivity.
  - exists (f_ident f). split; [reflexivity|apply (fn_ident f H)].
Qed.

Section Names.
Variable c : sctx.
Hypothesis Hs : struct_names_ok c.

Lemma prefix_ok : forall k,
  let p := unwrap_or (or_else (obind (s_get_helper (c_args c) k) helper_name_of) (default_prefix k)) "" in
  p = "" \/ ident_text p = true.
Proof.
  intros k. simpl. destruct (obind _ _) as [n|] eqn:E; simpl.
  - destruct (s_get_helper (c_args c) k) as [h|] eqn:G; [|discriminate]. simpl in E.
    apply given_value in E. destruct (sn_prefix c Hs k h n G E) as [->|W]; [auto|].
    right. apply ident_text_word, W.
  - destruct (default_prefix k) as [p|] eqn:D; simpl; [right; exact (prefix_text k p D)|auto].
Qed.

Lemma helper_ident_ok : forall f k, field_names_ok f ->
  exists n, helper_ident c f k = GOk n /\ identifier n.
Proof.
  intros f k H. unfold helper_ident.
  assert (C : exists n, (do base <- base_ident f;
      format_ident (unwrap_or (or_else (obind (s_get_helper (c_args c) k) helper_name_of) (default_prefix k)) ""
                    ++ fragment base ++ unwrap_or (default_suffix k) "")) = GOk n /\ identifier n).
  { destruct (base_ident_ok f H) as (b & -> & I). simpl.
    pose proof (fragment_text b I) as F.
    assert (T : ident_text (fragment b ++ unwrap_or (default_suffix k) "") = true)
      by (apply ident_text_app; [exact F|apply suffix_chars]).
    destruct (prefix_ok k) as [-> |P].
    - simpl. eexists. split; [apply format_text, T|apply text_identifier, T].
    - eexists. split; [apply format_text|apply text_identifier];
        apply ident_text_app; auto using ident_text_chars. }
  destruct (obind (f_get_helper f k) helper_name_of) as [n|] eqn:E; [|exact C].
  destruct (String.eqb n "") eqn:Z; [exact C|].
  destruct (f_get_helper f k) as [h|] eqn:G; [|discriminate]. simpl in E. apply given_value in E.
  destruct (fn_helper f H k h n G E) as [->|I]; [discriminate|].
  exists n. split; [apply format_identifier, I|exact I].
Qed.

Lemma wrapper_ident_ok : forall f, field_names_ok f ->
  exists n, lazy_wrapper_ident c f = GOk n /\ identifier n.
Proof.
  intros f H. unfold lazy_wrapper_ident. destruct (helper_ident_ok f KLazy H) as (n & -> & I).
  cbn [gbind].
  assert (T : ident_text ("__fx_async_wrap_for_" ++ fragment n) = true)
    by (apply ident_text_app; [reflexivity|apply ident_text_chars, fragment_text, I]).
  eexists. split; [apply format_text, T|apply text_identifier, T].
Qed.

(** ** Names of the struct *)
Lemma builder_ident_ok :
  builder_ident c = GOk (fragment (c_ident c) ++ "Builder")
  /\ ident_text (fragment (c_ident c) ++ "Builder") = true.
Proof.
  assert (T : ident_text (fragment (c_ident c) ++ "Builder") = true)
    by (apply ident_text_app; [apply fragment_text, (sn_ident c Hs)|reflexivity]).
  split; [apply format_text, T|exact T].
Qed.

Lemma shadow_ident_ok : exists n, shadow_ident_of c = GOk n /\ identifier n.
Proof.
  unfold shadow_ident_of. destruct (shadow_name_of c) as [n|] eqn:E.
  - unfold shadow_name_of in E. destruct (s_serde (c_args c)) as [w|] eqn:W; [|discriminate].
    assert (I : identifier n).
    { apply (sn_shadow c Hs w n W). apply given_value. exact E. }
    exists n. split; [apply format_identifier, I|exact I].
  - assert (T : ident_text ("__" ++ fragment (c_ident c) ++ "Shadow") = true).
    { apply ident_text_app; [reflexivity|]. rewrite ident_chars_app.
      rewrite (ident_text_chars _ (fragment_text _ (sn_ident c Hs))). reflexivity. }
    eexists. split; [apply format_text, T|apply text_identifier, T].
Qed.

Lemma myself_text : forall n, myself_name c = Some n -> ident_text n = true.
Proof.
  intros n E. unfold myself_name in E. destruct (s_rc (c_args c)) as [h|] eqn:R; [|discriminate].
  injection E as <-. destruct (helper_name_of h) as [m|] eqn:M; simpl; [|reflexivity].
  apply ident_text_word, (sn_rc c Hs h m R), given_value. exact M.
Qed.

Lemma myself_ok : forall n, myself_name c = Some n ->
  myself_idents c = GOk (Some (n, n ++ "_downgrade"))
  /\ myself_field_ident c = GOk (Some ("__weak_" ++ n)).
Proof.
  intros n E. pose proof (myself_text n E) as T.
  assert (M : myself_idents c = GOk (Some (n, n ++ "_downgrade"))).
  { unfold myself_idents. rewrite E, (format_text n T). cbn [gbind].
    rewrite format_text; [reflexivity|]. apply ident_text_app; [exact T|reflexivity]. }
  split; [exact M|]. unfold myself_field_ident. rewrite M. cbn [gbind].
  rewrite (fragment_word n) by (apply ident_text_word, T).
  rewrite format_text; [reflexivity|]. apply ident_text_app; [reflexivity|apply ident_text_chars, T].
Qed.
Lemma myself_none : myself_name c = None -> myself_idents c = GOk None /\ myself_field_ident c = GOk None.
Proof. intros E. unfold myself_field_ident, myself_idents. rewrite E. auto. Qed.
Lemma myself_field_ok : exists o, myself_field_ident c = GOk o.
Proof.
  destruct (myself_name c) as [n|] eqn:E; eexists; [apply (myself_ok n E)|apply (myself_none E)].
Qed.
End Names.

(** ** Numbered names *)
Lemma uint_chars : forall d, ident_chars (DecimalString.NilEmpty.string_of_uint d) = true.
Proof. induction d; simpl; auto. Qed.
Lemma unique_ok : forall n p, ident_text p = true -> exists i, unique_ident_of n p = GOk i /\ ident_text i = true.
Proof.
  intros n p T. assert (U : ident_text (p ++ "_" ++ decimal (S n)) = true).
  { apply ident_text_app; [exact T|]. rewrite ident_chars_app. unfold decimal. rewrite uint_chars. reflexivity. }
  eexists. split; [apply format_text, U|exact U].
Qed.
Lemma field_default_fn_ok : forall c f n, word (c_ident c) -> word (f_ident f) ->
  exists i, default_fn_ident c f n = GOk i.
Proof.
  intros c f n S F. apply ident_text_word in S, F.
  destruct (unique_ok n (pfx_field_default (c_ident c) (f_ident f))) as (i & E & _); [|eauto].
  unfold pfx_field_default. apply ident_text_app; [reflexivity|]. rewrite !ident_chars_app.
  rewrite (ident_text_chars _ S), (ident_text_chars _ F). reflexivity.
Qed.
Lemma shadow_default_fn_ok : forall c n s, shadow_ident_of c = GOk s -> word s ->
  exists i, shadow_default_fn_ident c n = GOk i.
Proof.
  intros c n s E W. unfold shadow_default_fn_ident. rewrite E. cbn [gbind]. apply ident_text_word in W.
  destruct (unique_ok n (pfx_shadow_default s)) as (i & U & _); [|eauto].
  apply ident_text_app; [exact W|reflexivity].
Qed.

(** ** Never an error *)
Definition made {A} (r : gres A) : Prop := (exists a, r = GOk a) \/ exists m, r = GPanic m.
Lemma made_bind : forall A B (r : gres A) (k : A -> gres B),
  made r -> (forall a, r = GOk a -> made (k a)) -> made (gbind r k).
Proof.
  intros A B r k [[a ->]|[m ->]] K; simpl; [apply K; reflexivity|right; eauto].
Qed.
Lemma made_ok : forall A (a : A), made (GOk a).
Proof. left; eauto. Qed.
Lemma made_new : forall s, made (ident_new s).
Proof. intros s. unfold ident_new. destruct (ident_text s); [left|right]; eauto. Qed.
Lemma made_format : forall s, made (format_ident s).
Proof.
  intros s. unfold format_ident, ident_new_raw. destruct (raw_part s); [|apply made_new].
  destruct (_ && _); [left|right]; eauto.
Qed.
Lemma made_helper : forall c f k, made (helper_ident c f k).
Proof.
  intros c f k. unfold helper_ident.
  assert (B : made (base_ident f))
    by (unfold base_ident; destruct (f_base_name_of f); [apply made_new|apply made_ok]).
  destruct (obind _ _) as [n|]; [destruct (String.eqb n "")|];
    try apply made_format; (apply made_bind; [exact B|intros; apply made_format]).
Qed.
Lemma made_wrapper : forall c f, made (lazy_wrapper_ident c f).
Proof. intros. apply made_bind; [apply made_helper|intros; apply made_format]. Qed.
Lemma made_shadow : forall c, made (shadow_ident_of c).
Proof. intros. unfold shadow_ident_of. destruct (shadow_name_of c); apply made_format. Qed.
Lemma made_myself : forall c, made (myself_idents c).
Proof.
  intros. unfold myself_idents. destruct (myself_name c); [|apply made_ok].
  repeat (apply made_bind; [apply made_format|intros]). apply made_ok.
Qed.
Lemma made_myself_field : forall c, made (myself_field_ident c).
Proof.
  intros. apply made_bind; [apply made_myself|]. intros [[a b]|] _; [|apply made_ok].
  apply made_bind; [apply made_format|intros; apply made_ok].
Qed.

(** ** Documented names *)
Lemma stem_word : forall f s, field_names_ok f -> stem f s -> ident_text s = true.
Proof.
  intros f s H [G|(_ & W & _)]; apply ident_text_word; [apply (fn_rename f H s G)|exact W].
Qed.
Lemma stem_base : forall f s, field_names_ok f -> stem f s -> exists b, base_ident f = GOk b /\ fragment b = s.
Proof.
  intros f s H St. pose proof (stem_word f s H St) as T. unfold base_ident.
  destruct (f_base_name_of f) as [n|] eqn:E.
  - apply given_value in E. destruct St as [G|(N & _)]; [|destruct (N n E)].
    assert (n = s) as ->.
    { apply given_value in E, G. congruence. }
    exists s. unfold ident_new. rewrite T. split; [reflexivity|].
    apply fragment_word, ident_text_word, T.
  - destruct St as [G|(_ & W & Q)].
    + apply given_value in G. unfold f_base_name_of in E. congruence.
    + exists (f_ident f). split; [reflexivity|].
      destruct Q as [-> | ->]; [apply fragment_word, W|reflexivity].
Qed.
Lemma composed_name : forall k s,
  unwrap_or (default_prefix k) "" ++ s ++ unwrap_or (default_suffix k) "" = documented_name k s.
Proof.
  assert (R : forall s, s ++ "" = s).
  { induction s as [|a s IH]; simpl; [reflexivity|rewrite IH; reflexivity]. }
  intros [] s; simpl; rewrite ?R; reflexivity.
Qed.
Lemma documented_text : forall k s, ident_text s = true -> ident_text (documented_name k s) = true.
Proof.
  intros k s T. pose proof (ident_text_chars s T).
  destruct k; simpl; try assumption; apply ident_text_app; auto.
Qed.
Lemma documented : forall c f k s, field_names_ok f -> stem f s -> unnamed c f k ->
  helper_ident c f k = GOk (documented_name k s).
Proof.
  intros c f k s H St [UF US]. destruct (stem_base f s H St) as (b & B & F).
  pose proof (stem_word f s H St) as T.
  assert (P : obind (s_get_helper (c_args c) k) helper_name_of = None).
  { destruct (s_get_helper (c_args c) k) as [h|] eqn:E; [|reflexivity]. simpl.
    destruct (helper_name_of h) as [n|] eqn:N; [|reflexivity].
    destruct (US h n eq_refl). apply given_value. exact N. }
  unfold helper_ident. rewrite B, P. cbn [gbind or_else]. rewrite F, composed_name.
  rewrite (format_text _ (documented_text k s T)).
  destruct (obind (f_get_helper f k) helper_name_of) as [n|] eqn:E; [|reflexivity].
  destruct (f_get_helper f k) as [h|] eqn:G; [|discriminate]. simpl in E.
  rewrite (UF h n eq_refl); [reflexivity|]. apply given_value. exact E.
Qed.

(** Without raw identifiers the names are those of CtxModel.v. *)
Lemma same_name : forall c f k, struct_names_ok c -> field_names_ok f -> word (f_ident f) ->
  helper_ident c f k = GOk (helper_name c f k).
Proof.
  intros c f k Hs H W. unfold helper_ident, helper_name.
  assert (B : base_ident f = GOk (helper_base_name f) /\ ident_text (helper_base_name f) = true).
  { unfold base_ident, helper_base_name. destruct (f_base_name_of f) as [n|] eqn:E; simpl.
    - apply given_value in E. apply (fn_rename f H), ident_text_word in E. unfold ident_new. rewrite E. auto.
    - apply ident_text_word in W. auto. }
  destruct B as [B T]. rewrite B. cbn [gbind].
  rewrite (fragment_word _ (proj1 (ident_text_word _) T)).
  assert (C : ident_text (unwrap_or (or_else (obind (s_get_helper (c_args c) k) helper_name_of) (default_prefix k)) ""
    ++ helper_base_name f ++ unwrap_or (default_suffix k) "") = true).
  { assert (R : ident_text (helper_base_name f ++ unwrap_or (default_suffix k) "") = true)
      by (apply ident_text_app; [exact T|apply suffix_chars]).
    destruct (prefix_ok c Hs k) as [-> |P]; [exact R|].
    apply ident_text_app; [exact P|apply ident_text_chars, R]. }
  rewrite (format_text _ C).
  destruct (obind (f_get_helper f k) helper_name_of) as [n|] eqn:E; [|reflexivity].
  destruct (f_get_helper f k) as [h|] eqn:G; [|discriminate]. simpl in E.
  assert (N : given_string (h_name h) n) by (apply given_value; exact E).
  destruct (fn_helper f H k h n G N) as [-> |I]; [reflexivity|].
  destruct (String.eqb n "") eqn:Z; [reflexivity|]. apply format_identifier, I.
Qed.

(** ** Keywords *)
Definition has_char (a : ascii) (s : string) : bool := existsb (Ascii.eqb a) (list_ascii_of_string s).
Lemma has_app : forall a s t, has_char a (s ++ t) = has_char a s || has_char a t.
Proof.
  intros a s t. unfold has_char. induction s as [|b s IH]; simpl; [reflexivity|]. rewrite IH, orb_assoc. reflexivity.
Qed.
Lemma length_app : forall s t, String.length (s ++ t) = String.length s + String.length t.
Proof. induction s as [|a s IH]; intros t; simpl; [reflexivity|]. rewrite IH. reflexivity. Qed.
Lemma no_keyword : forall s, has_char "_" s && Nat.ltb 1 (String.length s) || has_char "B" s = true ->
  ~ In s rust_keywords.
Proof.
  intros s H I.
  assert (K : forallb (fun s => negb (has_char "_" s && Nat.ltb 1 (String.length s) || has_char "B" s)) rust_keywords = true)
    by (vm_compute; reflexivity).
  rewrite forallb_forall in K. apply K in I. rewrite H in I. discriminate.
Qed.
Lemma text_length : forall s, ident_text s = true -> 1 <= String.length s.
Proof. intros [|a s]; simpl; [discriminate|lia]. Qed.
Lemma documented_nameable : forall k s, ident_text s = true ->
  (nameable (documented_name k s) <-> (k <> KAccessor /\ k <> KBuilder \/ ~ In s rust_keywords)).
Proof.
  intros k s T. pose proof (text_length s T). split.
  - intros [_ N]. destruct k; auto; left; split; discriminate.
  - intros H0. split; [apply text_identifier, documented_text, T|].
    assert (G : k = KAccessor \/ k = KBuilder \/ k <> KAccessor /\ k <> KBuilder)
      by (destruct k; auto; right; right; split; discriminate).
    destruct G as [-> |[-> |[A B]]].
    + destruct H0 as [[N _]|N]; [congruence|exact N].
    + destruct H0 as [[_ N]|N]; [congruence|exact N].
    + apply no_keyword. apply orb_true_iff. left. apply andb_true_iff.
      destruct k; try congruence; simpl documented_name;
        (split; [rewrite ?has_app, ?orb_true_iff; auto|apply Nat.ltb_lt; rewrite ?length_app; simpl; lia]).
Qed.

(** ** Names of the struct *)
Lemma word_nameable : forall s, ident_text s = true ->
  has_char "_" s && Nat.ltb 1 (String.length s) || has_char "B" s = true -> nameable s.
Proof. intros s T H. split; [apply text_identifier, T|apply no_keyword, H]. Qed.
Lemma builder_nameable : forall c, struct_names_ok c -> exists b, builder_ident c = GOk b /\ nameable b.
Proof.
  intros c H. destruct (builder_ident_ok c H) as [E T]. eexists. split; [exact E|].
  apply word_nameable; [exact T|]. rewrite !has_app. simpl. rewrite !orb_true_r. reflexivity.
Qed.
Lemma shadow_nameable : forall c, struct_names_ok c ->
  (forall w n, s_serde (c_args c) = Some w -> ~ given_string (se_shadow_name w) n) ->
  exists s, shadow_ident_of c = GOk s /\ nameable s.
Proof.
  intros c H N.
  assert (E : shadow_name_of c = None).
  { unfold shadow_name_of. destruct (s_serde (c_args c)) as [w|] eqn:W; [|reflexivity].
    destruct (obind (se_shadow_name w) strarg_value) as [n|] eqn:X; [|reflexivity].
    destruct (N w n eq_refl). apply given_value. exact X. }
  unfold shadow_ident_of. rewrite E.
  assert (T : ident_text ("__" ++ fragment (c_ident c) ++ "Shadow") = true).
  { apply ident_text_app; [reflexivity|]. rewrite ident_chars_app.
    rewrite (ident_text_chars _ (fragment_text _ (sn_ident c H))). reflexivity. }
  eexists. split; [apply format_text, T|]. apply word_nameable; [exact T|reflexivity].
Qed.
Lemma weak_nameable : forall c n, struct_names_ok c -> myself_name c = Some n ->
  nameable ("__weak_" ++ n) /\ nameable (n ++ "_downgrade").
Proof.
  intros c n H E. pose proof (myself_text c H n E) as T. split.
  - apply word_nameable; [|reflexivity]. apply ident_text_app; [reflexivity|apply ident_text_chars, T].
  - apply word_nameable; [apply ident_text_app; [exact T|reflexivity]|].
    rewrite has_app, length_app. replace (has_char "_" "_downgrade") with true by reflexivity.
    rewrite orb_true_r. simpl String.length. replace (Nat.ltb 1 _) with true; [reflexivity|].
    symmetry. apply Nat.ltb_lt. lia.
Qed.
