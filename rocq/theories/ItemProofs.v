(** Lemmas about the names of all generated functions of a struct. *)
From Coq Require Import List Bool String Ascii Arith Lia.
From Verif Require Import ArgsModel CtxModel RustAst ArgsSpec ArgsProofs CommonGen StructGen CodegenStruct
  CopyModel TokenModel TokenProofs NameModel MacroModel MacroSpec NameProofs MacroProofs ItemModel ItemSpec.
Import ListNotations.
Open Scope string_scope.

(** ** Texts *)
Lemma app_cases : forall a b c d : string, a ++ b = c ++ d ->
  (exists r, a = c ++ r /\ d = r ++ b) \/ (exists r, c = a ++ r /\ b = r ++ d).
Proof.
  induction a as [|x a IH]; intros b c d E.
  - right. exists c. split; [reflexivity|exact E].
  - destruct c as [|y c].
    + left. exists (String x a). split; [reflexivity|symmetry; exact E].
    + injection E as -> E. destruct (IH b c d E) as [(r & -> & ->)|(r & -> & ->)].
      * left. exists r. split; reflexivity.
      * right. exists r. split; reflexivity.
Qed.
Lemma app_assoc_s : forall a b c : string, (a ++ b) ++ c = a ++ b ++ c.
Proof. induction a as [|x a IH]; intros b c; [reflexivity|]. cbn. rewrite IH. reflexivity. Qed.

Lemma mut_prefix : forall k s t, In k struct_kinds -> helper_prefix k <> "" ->
  (s ++ "_mut" = documented_name k t <-> mut_meets s k t).
Proof.
  intros k s t Hk Hp. split.
  - intro E. split; [exact Hp|].
    assert (Eq : s ++ "_mut" = helper_prefix k ++ t)
      by (destruct k; try (exfalso; apply Hp; reflexivity); exact E).
    destruct (app_cases _ _ _ _ Eq) as [(r & -> & ->)|(r & Er & Et)].
    + left. exists r. auto.
    + destruct r as [|a r].
      * left. exists "". rewrite append_nil_r in Er. cbn in Et. subst t. split; [|reflexivity].
        rewrite append_nil_r. symmetry. exact Er.
      * destruct r as [|b r].
        { injection Et as <- <-. right. split; [symmetry; exact Er|reflexivity]. }
        exfalso. injection Et as <- <- Et.
        assert (L : forall x : string, x ++ String "_" (String "m" r) <> helper_prefix k).
        { clear -Hp. intros x E.
          assert (C : exists y, helper_prefix k = y ++ String "_" (String "m" r)) by (exists x; symmetry; exact E).
          destruct k; try (apply Hp; reflexivity); cbn in E;
          repeat (destruct x as [|? x]; cbn in E; try discriminate E; try (injection E as ? E; subst)). }
        exact (L s (eq_sym Er)).
  - intros (_ & [(r & -> & ->)|(E & ->)]).
    + rewrite app_assoc_s. destruct k; try (exfalso; apply Hp; reflexivity); reflexivity.
    + assert (X : s ++ "_mut" = (s ++ "_") ++ "mut") by (rewrite app_assoc_s; reflexivity).
      rewrite X, E. destruct k; try (exfalso; apply Hp; reflexivity); reflexivity.
Qed.

Lemma meet : forall k k' s t, In k struct_kinds -> In k' struct_kinds -> k <> k' ->
  (documented_name k s = documented_name k' t <->
   (k = KAccessor /\ s = documented_name k' t) \/ (k' = KAccessor /\ t = documented_name k s)
   \/ (k = KAccessorMut /\ mut_meets s k' t) \/ (k' = KAccessorMut /\ mut_meets t k s)).
Proof.
  intros k k' s t Hk Hk' N. split.
  - intro E.
    destruct k; destruct k'; try (exfalso; apply N; reflexivity); try (cbn in E; discriminate E);
      try (left; split; [reflexivity|exact E]);
      try (right; left; split; [reflexivity|symmetry; exact E]);
      try (right; right; left; split; [reflexivity|]; apply mut_prefix; [assumption|discriminate|exact E]);
      try (right; right; right; split; [reflexivity|]; apply mut_prefix; [assumption|discriminate|symmetry; exact E]);
      exfalso; cbn in Hk, Hk'; intuition discriminate.
  - intros [(-> & E)|[(-> & E)|[(-> & E)|(-> & E)]]].
    + exact E.
    + symmetry. exact E.
    + destruct E as (P & E). apply mut_prefix; [exact Hk'|exact P|]. split; [exact P|exact E].
    + symmetry. destruct E as (P & E). apply mut_prefix; [exact Hk|exact P|]. split; [exact P|exact E].
Qed.

(** Quiet names decorate apart. *)
Lemma quiet_prefix : forall k s t, helper_prefix k <> "" -> quiet s -> s <> helper_prefix k ++ t.
Proof.
  intros k s t P Q E. apply (q_prefix s Q (helper_prefix k)); [|exists t; exact E].
  destruct k; cbn in *; tauto.
Qed.
Lemma quiet_doc : forall k s t, In k struct_kinds -> k <> KAccessor -> quiet s -> s <> documented_name k t.
Proof.
  intros k s t Hk N Q E. destruct k; try (exfalso; apply N; reflexivity);
  try (match type of E with s = documented_name ?k t => apply (quiet_prefix k s t); [discriminate|exact Q|exact E] end).
  - apply (q_suffix s Q). exists t. exact E.
  - cbn in Hk; intuition discriminate.
Qed.
Lemma quiet_meets : forall s k t, quiet s -> quiet t -> ~ mut_meets s k t.
Proof.
  intros s k t Qs Qt (P & [(r & E & _)|(_ & E)]).
  - exact (quiet_prefix k s r P Qs E).
  - apply (q_alone t Qt). rewrite E. simpl. auto.
Qed.
Lemma doc_inj : forall k s t, documented_name k s = documented_name k t -> s = t.
Proof.
  intros k s t E. destruct k; try exact E; try (cbn in E; congruence).
  apply (append_inj_r s t "_mut"). exact E.
Qed.
Lemma quiet_apart : forall k k' s t, In k struct_kinds -> In k' struct_kinds -> quiet s -> quiet t ->
  documented_name k s = documented_name k' t -> k = k' /\ s = t.
Proof.
  intros k k' s t Hk Hk' Qs Qt E.
  assert (D : {k = k'} + {k <> k'}) by decide equality.
  destruct D as [<-|N]; [split; [reflexivity|exact (doc_inj k s t E)]|exfalso].
  apply (meet k k' s t Hk Hk' N) in E. destruct E as [(-> & E)|[(-> & E)|[(-> & E)|(-> & E)]]].
  - apply (quiet_doc k' s t Hk' (fun X => N (eq_sym X)) Qs E).
  - apply (quiet_doc k t s Hk N Qt E).
  - exact (quiet_meets s k' t Qs Qt E).
  - exact (quiet_meets t k s Qt Qs E).
Qed.

(** ** First letters *)
Definition capitalb (a : ascii) : bool := existsb (Ascii.eqb a) (list_ascii_of_string "ABCDEFGHIJKLMNOPQRSTUVWXYZ").
Lemma capitalb_spec : forall a, capitalb a = true <-> capital a.
Proof. intro a. apply existsb_in. Qed.
(** 0 a wrapper, 1 the hidden constructor, 2 the check for Copy, 3 a default of serde. *)
Definition tag (n : string) : nat :=
  match n with
  | String a r =>
      if capitalb a then 3 else
      match r with
      | String b (String d q) =>
          if Ascii.eqb a "_" && Ascii.eqb b "_" then
            if capitalb d then 3
            else if String.prefix "__fx_async" n then 0
            else if String.eqb n "__fieldx_new" then 1
            else if String.eqb n "__fieldx_copy_validation" then 2
            else 4
          else 4
      | _ => 4
      end
  | _ => 4
  end.
Lemma quiet_first : forall a r, quiet (String a r) -> capitalb a = false.
Proof.
  intros a r Q. destruct (capitalb a) eqn:E; [|reflexivity]. exfalso. apply (q_lower _ Q).
  exists a, r. split; [reflexivity|apply capitalb_spec, E].
Qed.
Lemma quiet_second : forall a b r, quiet (String a (String b r)) -> Ascii.eqb a "_" && Ascii.eqb b "_" = false.
Proof.
  intros a b r Q. destruct (Ascii.eqb_spec a "_") as [->|]; [|reflexivity].
  destruct (Ascii.eqb_spec b "_") as [->|]; [|reflexivity]. exfalso.
  apply (q_prefix _ Q "__"); [simpl; tauto|]. exists r. reflexivity.
Qed.
Lemma quiet_tag : forall s, quiet s -> tag s = 4.
Proof.
  intros s Q. destruct s as [|a [|b [|d r]]]; [reflexivity| | |]; unfold tag; rewrite (quiet_first _ _ Q); try reflexivity.
  rewrite (quiet_second _ _ _ Q). reflexivity.
Qed.
Lemma doc_tag : forall k s, quiet s -> tag (documented_name k s) = 4.
Proof.
  intros k s Q.
  destruct k; try exact (quiet_tag s Q); try (destruct s; reflexivity).
  destruct s as [|a [|b r]]; [reflexivity| |]; cbn [documented_name append]; unfold tag; rewrite (quiet_first _ _ Q).
  - destruct (Ascii.eqb_spec a "_") as [->|]; [|reflexivity].
    exfalso. apply (q_alone _ Q). simpl. tauto.
  - destruct r; cbn [append]; rewrite (quiet_second _ _ _ Q); reflexivity.
Qed.
Lemma doc_reserved : forall k s, quiet s -> ~ In (documented_name k s) ["new"; "builder"].
Proof.
  intros k s Q [E|[E|[]]].
  - destruct k; try discriminate E; try (apply (q_alone s Q); cbn in E; subst; simpl; tauto).
    cbn in E. repeat (destruct s as [|? s]; cbn in E; try discriminate E; injection E as ? E); discriminate E.
  - destruct k; try discriminate E; try (apply (q_alone s Q); cbn in E; subst; simpl; tauto).
    cbn in E. repeat (destruct s as [|? s]; cbn in E; try discriminate E; injection E as ? E); discriminate E.
Qed.

(** ** The functions of a struct *)
Section Struct.
Variables (c : sctx) (ss : list string).
Hypothesis ok : ok_input c.
Hypothesis K : calm c ss.

Definition wrap_name (s : string) : string := "__fx_async_wrap_for_" ++ documented_name KLazy s.
(** The name of an item as text. *)
Inductive shaped : item -> string -> Prop :=
| ShHelper : forall f k s, In f (c_input_fields c) -> In k struct_kinds -> k <> KLazy -> stem f s -> In s ss ->
    shaped (IHelper f k) (documented_name k s)
| ShWrapper : forall f s, In f (c_input_fields c) -> stem f s -> In s ss -> shaped (IWrapper f) (wrap_name s)
| ShField : forall f n p, tag (p ++ "_" ++ decimal (S n)) = 3 -> shaped (IFieldDefault f n) (p ++ "_" ++ decimal (S n))
| ShMyself : forall n d, own_names c [n; d] -> shaped IMyself n
| ShDowngrade : forall n d, own_names c [n; d] -> shaped IDowngrade d
| ShNew : s_needs_new (c_args c) = true -> shaped INew "new"
| ShHidden : s_needs_new (c_args c) = false -> shaped INew "__fieldx_new"
| ShBuilder : shaped IBuilder "builder"
| ShShadow : forall n p, tag (p ++ "_" ++ decimal (S n)) = 3 -> shaped (IShadowDefault n) (p ++ "_" ++ decimal (S n))
| ShCopy : shaped ICopyCheck "__fieldx_copy_validation".

Lemma forall2_left : forall {A B} (R : A -> B -> Prop) l r x, Forall2 R l r -> In x l -> exists y, In y r /\ R x y.
Proof.
  intros A B R l r x F. induction F as [|a b l r H F IH]; [intros []|]. intros [<-|I].
  - exists b. split; [left; reflexivity|exact H].
  - destruct (IH I) as (y & Y & Q). exists y. split; [right; exact Y|exact Q].
Qed.
Lemma stem_in : forall f, In f (c_input_fields c) -> exists s, In s ss /\ stem f s.
Proof. intros f I. exact (forall2_left stem _ _ f (ca_stems c ss K) I). Qed.
Lemma stem_fun : forall f s t, In f (c_input_fields c) -> stem f s -> stem f t -> s = t.
Proof.
  intros f s t I A B. pose proof (ok_fields c ok f I) as H.
  destruct (stem_base f s H A) as (b & E & <-), (stem_base f t H B) as (b' & E' & <-). congruence.
Qed.
Lemma own_names_ex : exists ns, own_names c ns.
Proof.
  unfold own_names. destruct (s_is_ref_counted (c_args c)) eqn:R.
  - unfold s_is_ref_counted in R. destruct (s_rc (c_args c)) as [h|] eqn:E; [|discriminate].
    destruct (helper_name_of h) as [m|] eqn:M.
    + exists [m; m ++ "_downgrade"]. left. split; [reflexivity|]. exists h, m. split; [reflexivity|].
      split; [reflexivity|]. left. apply given_value. exact M.
    + exists ["myself"; "myself_downgrade"]. left. split; [reflexivity|]. exists h, "myself". split; [reflexivity|].
      split; [reflexivity|]. right. split; [|reflexivity]. intros m G. apply given_value in G.
      unfold helper_name_of in M. congruence.
  - exists []. right. auto.
Qed.
Lemma ss_nodup : NoDup ss.
Proof. destruct own_names_ex as (ns & O). destruct (ca_apart c ss K ns O) as (N & _). clear O. revert N. induction ns as [|n ns IH]; intro N; [exact N|]. inversion N. auto. Qed.
Lemma ss_quiet : forall s, In s ss -> quiet s.
Proof.
  intros s I. destruct own_names_ex as (ns & O). destruct (ca_apart c ss K ns O) as (_ & Q). apply Q, in_or_app. auto.
Qed.
Lemma same_stem : forall f g s, In f (c_input_fields c) -> In g (c_input_fields c) -> stem f s -> stem g s -> f = g.
Proof.
  pose proof (ca_stems c ss K) as F. pose proof ss_nodup as N.
  assert (FN : forall f s t, In f (c_input_fields c) -> stem f s -> stem f t -> s = t) by exact stem_fun.
  clear K ok. revert F N FN. generalize (c_input_fields c). intros l F.
  induction F as [|a b l r H F IH]; [intros _ _ f g s []|].
  intros N FN f g s Jf Jg Sf Sg. inversion N as [|? ? Nb Nr]; subst.
  assert (X : forall h, In h l -> stem h s -> In s r).
  { intros h Jh Sh. destruct (forall2_left stem _ _ h F Jh) as (t & T & St).
    rewrite (FN h s t (or_intror Jh) Sh St). exact T. }
  destruct Jf as [<-|Jf], Jg as [<-|Jg].
  - reflexivity.
  - exfalso. apply Nb. rewrite <- (FN a s b (or_introl eq_refl) Sf H). exact (X g Jg Sg).
  - exfalso. apply Nb. rewrite <- (FN a s b (or_introl eq_refl) Sg H). exact (X f Jf Sf).
  - apply (IH Nr (fun f s t J => FN f s t (or_intror J)) f g s Jf Jg Sf Sg).
Qed.

Lemma capital_tag : forall s r, capitalised s -> tag (s ++ r) = 3.
Proof.
  intros s r (a & q & -> & C). apply capitalb_spec in C. cbn -[capitalb]. rewrite C. reflexivity.
Qed.
Lemma capital_tag2 : forall s r, capitalised s -> tag ("__" ++ s ++ r) = 3.
Proof.
  intros s r (a & q & -> & C). apply capitalb_spec in C. cbn -[capitalb]. rewrite C. reflexivity.
Qed.

Lemma own_myself : s_is_ref_counted (c_args c) = true -> exists n,
  own_names c [n; n ++ "_downgrade"] /\ myself_idents c = GOk (Some (n, n ++ "_downgrade")).
Proof.
  intro R. assert (R' := R). unfold s_is_ref_counted in R'. destruct (s_rc (c_args c)) as [h|] eqn:E; [|discriminate].
  destruct (helper_name_of h) as [m|] eqn:M.
  - exists m. split.
    + left. split; [exact R|]. exists h, m. split; [exact E|]. split; [reflexivity|]. left. apply given_value. exact M.
    + apply (myself_ok c (ok_struct c ok)). unfold myself_name. rewrite E, M. reflexivity.
  - exists "myself". split.
    + left. split; [exact R|]. exists h, "myself". split; [exact E|]. split; [reflexivity|].
      right. split; [|reflexivity]. intros m G. apply given_value in G. unfold helper_name_of in M. congruence.
    + apply (myself_ok c (ok_struct c ok)). unfold myself_name. rewrite E, M. reflexivity.
Qed.
Lemma in_extra : forall f, In f (extra_fields c) -> f_skip f = true /\ is_serde c f = false.
Proof.
  intros f J. unfold extra_fields in J. destruct (s_is_ref_counted (c_args c)); [|destruct J].
  destruct (myself_field c); [|destruct J]. destruct J as [<-|[]].
  assert (X : f_skip (rc_field s (weak_type c)) = true) by reflexivity.
  split; [exact X|]. apply (skip_settings c _ X).
Qed.

Lemma field_shaped : forall f i, In f (all_fields c) -> In i (field_items c f) ->
  exists n, item_ident c i = GOk n /\ shaped i n.
Proof.
  intros f i J I. unfold field_items in I. apply in_app_or in J. destruct J as [J|J].
  { destruct (in_extra f J) as (S & _). rewrite (skip_no_methods c f S) in I.
    unfold wrapped, f_is_skipped in I. rewrite S in I. cbn in I. rewrite andb_false_r in I. destruct I. }
  destruct (stem_in f J) as (s & Is & St). pose proof (ok_fields c ok f J) as H.
  destruct (field_methods c f) as [l| |] eqn:E; [|destruct I|destruct I].
  apply in_app_or in I. destruct I as [I|I].
  - apply in_map_iff in I. destruct I as (m & <- & Im). destruct (field_decls c f l m E Im) as (_ & _ & _ & W).
    exists (documented_name (m_kind m) s). split.
    + apply (documented c f (m_kind m) s H St), (ca_unnamed c ss K f _ J).
    + apply ShHelper; auto; destruct (m_kind m); try discriminate W; unfold struct_kinds; cbn; intuition discriminate.
  - destruct (wrapped c f); [|destruct I]. destruct I as [<-|[]]. exists (wrap_name s). split; [|apply ShWrapper; auto].
    cbn [item_ident]. unfold lazy_wrapper_ident. rewrite (documented c f KLazy s H St (ca_unnamed c ss K f _ J)). cbn [gbind].
    pose proof (documented_text KLazy s (stem_word f s H St)) as T.
    rewrite (fragment_word _) by (apply ident_text_word, T). apply format_text.
    apply ident_text_app; [reflexivity|apply ident_text_chars, T].
Qed.

Lemma in_serde_items : forall l n i, In i (serde_items c n l) -> exists f m, i = IFieldDefault f m /\ In f l
  /\ is_serde c f = true /\ own_default_fn f = true
  /\ n <= m < n + List.length (filter own_default_fn (filter (is_serde c) l)).
Proof.
  induction l as [|f l IH]; intros n i I; [destruct I|]. cbn [serde_items filter] in *.
  destruct (is_serde c f) eqn:D; cbn [andb] in I.
  2: { destruct (IH n i I) as (g & m & -> & J & S). exists g, m. split; [reflexivity|]. split; [right; exact J|exact S]. }
  cbn [filter]. destruct (own_default_fn f) eqn:O.
  - cbn [List.length]. destruct I as [<-|I].
    + exists f, n. split; [reflexivity|]. split; [left; reflexivity|]. repeat split; auto; lia.
    + destruct (IH (S n) i I) as (g & m & -> & J & S1 & S2 & S3). exists g, m. split; [reflexivity|]. split; [right; exact J|].
      repeat split; auto; lia.
  - destruct (IH n i I) as (g & m & -> & J & S1). exists g, m. split; [reflexivity|]. split; [right; exact J|exact S1].
Qed.
Lemma serde_nodup : forall l n, NoDup (serde_items c n l).
Proof.
  induction l as [|f l IH]; intro n; [constructor|]. cbn [serde_items].
  destruct (is_serde c f && own_default_fn f); [|apply IH]. constructor; [|apply IH].
  intro I. destruct (in_serde_items _ _ _ I) as (g & m & E & _ & _ & _ & L). injection E as -> ->. lia.
Qed.

Lemma unique_named : forall n p, ident_text p = true -> unique_ident_of n p = GOk (p ++ "_" ++ decimal (S n)).
Proof.
  intros n p T. apply format_text. apply ident_text_app; [exact T|]. rewrite ident_chars_app.
  unfold decimal. rewrite uint_chars. reflexivity.
Qed.
Lemma default_shaped : forall f n, In f (c_input_fields c) -> own_default_fn f = true ->
  exists i, item_ident c (IFieldDefault f n) = GOk i /\ shaped (IFieldDefault f n) i.
Proof.
  intros f n J O.
  assert (C : code_default (f_serde f)).
  { unfold own_default_fn in O. destruct (f_serde f) as [w|] eqn:W; [|discriminate].
    apply andb_true_iff in O. destruct O as (H & V). unfold has_serde_default in H.
    destruct (se_default w) as [d|] eqn:D; [|discriminate]. unfold defarg_is_true in H. apply negb_true_iff in H.
    apply andb_true_iff in V. destruct V as (V & S). apply negb_true_iff in S.
    destruct (d_value d) as [v|] eqn:VV; [|discriminate]. exists w, d, v. auto. }
  destruct (nr_field c (ok_raw c ok) f J C) as (A & B). apply ident_text_word in A, B.
  eexists. split.
  - cbn [item_ident]. unfold default_fn_ident. apply unique_named. unfold pfx_field_default.
    apply ident_text_app; [reflexivity|]. rewrite !ident_chars_app.
    rewrite (ident_text_chars _ A), (ident_text_chars _ B). reflexivity.
  - apply ShField. unfold pfx_field_default. rewrite !app_assoc_s. apply capital_tag2, (ca_type c ss K).
Qed.
Lemma shadow_shaped : forall n, shadow_default_fn c = true ->
  exists i, item_ident c (IShadowDefault n) = GOk i /\ shaped (IShadowDefault n) i.
Proof.
  intros n O. unfold shadow_default_fn in O. destruct (s_serde (c_args c)) as [w|] eqn:W; [|discriminate].
  apply andb_true_iff in O. destruct O as (H & V). unfold has_serde_default in H.
  destruct (se_default w) as [d|] eqn:D; [|discriminate]. unfold defarg_is_true in H. apply negb_true_iff in H.
  destruct (d_value d) as [v|] eqn:VV; [|discriminate].
  assert (A : any_default (Some w)) by (exists w, d, v; auto).
  assert (T : exists s, shadow_ident_of c = GOk s /\ ident_text s = true
                        /\ tag ((s ++ "_default") ++ "_" ++ decimal (S n)) = 3).
  { unfold shadow_ident_of, shadow_name_of. rewrite W. destruct (obind (se_shadow_name w) strarg_value) as [m|] eqn:E.
    - assert (G : given_string (se_shadow_name w) m) by (apply given_value; exact E).
      pose proof (nr_shadow c (ok_raw c ok) w m W A G) as N. exists m. split; [apply format_identifier; left; exact N|].
      split; [apply ident_text_word, N|]. rewrite app_assoc_s. apply capital_tag, (ca_shadow c ss K w m W G).
    - pose proof (ca_type c ss K) as Ty.
      assert (F : fragment (c_ident c) = c_ident c).
      { destruct Ty as (a & r & -> & Ca). unfold fragment. cbn. destruct r as [|b r]; [reflexivity|].
        destruct (Ascii.eqb_spec a "r") as [->|]; [|reflexivity].
        exfalso. cbn in Ca. repeat destruct Ca as [Ca|Ca]; try discriminate Ca. exact Ca. }
      assert (Tx : ident_text ("__" ++ fragment (c_ident c) ++ "Shadow") = true).
      { apply ident_text_app; [reflexivity|]. rewrite ident_chars_app.
        rewrite (ident_text_chars _ (fragment_text _ (sn_ident c (ok_struct c ok)))). reflexivity. }
      eexists. split; [apply format_text, Tx|]. split; [exact Tx|]. rewrite F, !app_assoc_s. apply capital_tag2, Ty. }
  destruct T as (s & E & T & G). eexists. split.
  - cbn [item_ident]. unfold shadow_default_fn_ident. rewrite E. cbn [gbind]. apply unique_named. unfold pfx_shadow_default.
    apply ident_text_app; [exact T|reflexivity].
  - apply ShShadow. exact G.
Qed.

Lemma all_shaped : forall i, In i (items c) -> exists n, item_ident c i = GOk n /\ shaped i n.
Proof.
  intros i I. unfold items in I.
  apply in_app_or in I. destruct I as [I|I].
  { apply in_flat_map in I. destruct I as (f & J & I). exact (field_shaped f i J I). }
  apply in_app_or in I. destruct I as [I|I].
  { destruct (s_is_serde (c_args c)); [|destruct I]. destruct (in_serde_items _ _ _ I) as (f & m & -> & J & S & O & _).
    apply in_app_or in J. destruct J as [J|J]; [destruct (in_extra f J) as (_ & X); congruence|].
    exact (default_shaped f m J O). }
  apply in_app_or in I. destruct I as [I|I].
  { destruct (s_is_ref_counted (c_args c)) eqn:R; [|destruct I]. destruct (own_myself R) as (n & O & E).
    destruct I as [<-|[<-|[]]]; cbn [item_ident]; rewrite E; cbn; eexists; (split; [reflexivity|]).
    - exact (ShMyself _ _ O).
    - exact (ShDowngrade _ _ O). }
  apply in_app_or in I. destruct I as [I|I].
  { destruct (needs_default c); [|destruct I]. destruct I as [<-|[]]. eexists. split; [reflexivity|].
    unfold new_name. destruct (s_needs_new (c_args c)) eqn:N; [exact (ShNew N)|exact (ShHidden N)]. }
  apply in_app_or in I. destruct I as [I|I].
  { destruct (needs_builder_struct c); [|destruct I]. destruct I as [<-|[]]. eexists. split; [reflexivity|]. constructor. }
  apply in_app_or in I. destruct I as [I|I].
  { destruct (s_is_serde (c_args c)); [|destruct I]. destruct (shadow_default_fn c) eqn:S; [|destruct I].
    destruct I as [<-|[]]. exact (shadow_shaped _ S). }
  destruct (copy_checked c); [destruct I|]. destruct I as [<-|[]]. eexists. split; [reflexivity|]. constructor.
Qed.

Lemma serde_number : forall l n f g m, In (IFieldDefault f m) (serde_items c n l) ->
  In (IFieldDefault g m) (serde_items c n l) -> f = g.
Proof.
  induction l as [|h l IH]; intros n f g m A B; [destruct A|]. cbn [serde_items] in A, B.
  destruct (is_serde c h && own_default_fn h); [|exact (IH n f g m A B)].
  destruct A as [A|A], B as [B|B].
  - congruence.
  - injection A as <- <-. destruct (in_serde_items _ _ _ B) as (x & y & E & _ & _ & _ & L). injection E as -> ->. lia.
  - injection B as <- <-. destruct (in_serde_items _ _ _ A) as (x & y & E & _ & _ & _ & L). injection E as -> ->. lia.
  - exact (IH (S n) f g m A B).
Qed.
Lemma items_default : forall f m, In (IFieldDefault f m) (items c) -> In (IFieldDefault f m) (serde_items c 0 (all_fields c)).
Proof.
  intros f m I. unfold items in I.
  repeat (apply in_app_or in I; destruct I as [I|I]).
  - apply in_flat_map in I. destruct I as (g & _ & I). unfold field_items in I.
    destruct (field_methods c g); [|destruct I|destruct I]. apply in_app_or in I. destruct I as [I|I].
    + apply in_map_iff in I. destruct I as (x & E & _). discriminate E.
    + destruct (wrapped c g); [|destruct I]. destruct I as [E|[]]. discriminate E.
  - destruct (s_is_serde (c_args c)); [exact I|destruct I].
  - destruct (s_is_ref_counted (c_args c)); [|destruct I]. destruct I as [E|[E|[]]]; discriminate E.
  - destruct (needs_default c); [|destruct I]. destruct I as [E|[]]; discriminate E.
  - destruct (needs_builder_struct c); [|destruct I]. destruct I as [E|[]]; discriminate E.
  - destruct (s_is_serde (c_args c) && shadow_default_fn c); [|destruct I]. destruct I as [E|[]]; discriminate E.
  - destruct (copy_checked c); [destruct I|]. destruct I as [E|[]]; discriminate E.
Qed.
Lemma items_shadow : forall m, In (IShadowDefault m) (items c) ->
  m = List.length (filter own_default_fn (filter (is_serde c) (all_fields c))).
Proof.
  intros m I. unfold items in I.
  repeat (apply in_app_or in I; destruct I as [I|I]).
  - apply in_flat_map in I. destruct I as (g & _ & I). unfold field_items in I.
    destruct (field_methods c g); [|destruct I|destruct I]. apply in_app_or in I. destruct I as [I|I].
    + apply in_map_iff in I. destruct I as (x & E & _). discriminate E.
    + destruct (wrapped c g); [|destruct I]. destruct I as [E|[]]. discriminate E.
  - destruct (s_is_serde (c_args c)); [|destruct I]. destruct (in_serde_items _ _ _ I) as (f & k & E & _). discriminate E.
  - destruct (s_is_ref_counted (c_args c)); [|destruct I]. destruct I as [E|[E|[]]]; discriminate E.
  - destruct (needs_default c); [|destruct I]. destruct I as [E|[]]; discriminate E.
  - destruct (needs_builder_struct c); [|destruct I]. destruct I as [E|[]]; discriminate E.
  - destruct (s_is_serde (c_args c) && shadow_default_fn c); [|destruct I]. destruct I as [E|[]]. injection E as <-. reflexivity.
  - destruct (copy_checked c); [destruct I|]. destruct I as [E|[]]; discriminate E.
Qed.

Lemma own_quiet : forall n d, own_names c [n; d] -> quiet n /\ quiet d /\ n <> d /\ ~ In n ss /\ ~ In d ss.
Proof.
  intros n d O. destruct (ca_apart c ss K _ O) as (N & Q). cbn in N, Q.
  split; [apply Q; auto|]. split; [apply Q; auto|]. inversion N as [|? ? A B]; subst. inversion B as [|? ? D E]; subst.
  split; [intros ->; apply A; left; reflexivity|]. split; [intro X; apply A; right; exact X|exact D].
Qed.
Lemma own_fun : forall n d n' d', own_names c [n; d] -> own_names c [n'; d'] -> n = n' /\ d = d'.
Proof.
  intros n d n' d' [(_ & h & m & E & X & G)|(_ & X)] [(_ & h' & m' & E' & X' & G')|(_ & X')]; try discriminate X; try discriminate X'.
  injection X as -> ->. injection X' as -> ->. rewrite E in E'. injection E' as <-.
  assert (m = m') as ->; [|auto].
  destruct G as [G|(N & ->)], G' as [G'|(N' & ->)].
  - apply given_value in G, G'. congruence.
  - destruct (N' m G).
  - destruct (N m' G').
  - reflexivity.
Qed.

(** What kind of name an item has. *)
Lemma wrap_tag : forall s, tag (wrap_name s) = 0.
Proof. reflexivity. Qed.
Definition item_tag (i : item) : nat :=
  match i with
  | IWrapper _ => 0
  | INew => if s_needs_new (c_args c) then 4 else 1
  | ICopyCheck => 2
  | IFieldDefault _ _ | IShadowDefault _ => 3
  | _ => 4
  end.
Lemma shaped_tag : forall i n, shaped i n -> tag n = item_tag i.
Proof.
  intros i n S. destruct S as [f k s _ _ _ _ I|f s _ _ _|f n p T|n d O|n d O|E|E| |n p T|]; cbn [item_tag].
  - apply doc_tag, ss_quiet, I.
  - reflexivity.
  - exact T.
  - apply quiet_tag, (own_quiet n d O).
  - apply quiet_tag, (own_quiet n d O).
  - rewrite E. reflexivity.
  - rewrite E. reflexivity.
  - reflexivity.
  - exact T.
  - reflexivity.
Qed.
Lemma doc_own : forall k s n, In k struct_kinds -> In s ss -> quiet n -> ~ In n ss -> documented_name k s <> n.
Proof.
  intros k s n Hk I Q N E. destruct (quiet_apart k KAccessor s n Hk (or_introl eq_refl) (ss_quiet s I) Q E) as (_ & ->).
  exact (N I).
Qed.
Lemma doc_new : forall k s, In s ss -> documented_name k s <> "new".
Proof. intros k s I E. apply (doc_reserved k s (ss_quiet s I)). rewrite E. simpl. auto. Qed.
Lemma doc_builder : forall k s, In s ss -> documented_name k s <> "builder".
Proof. intros k s I E. apply (doc_reserved k s (ss_quiet s I)). rewrite E. simpl. auto. Qed.
Lemma quiet_new : ~ quiet "new".
Proof. intro Q. apply (q_alone _ Q). simpl. tauto. Qed.
Lemma quiet_builder : ~ quiet "builder".
Proof. intro Q. apply (q_alone _ Q). simpl. tauto. Qed.

(** One order of two items; the other follows. *)
Lemma shaped_same : forall i j n, shaped i n -> shaped j n -> In i (items c) -> In j (items c) -> i = j.
Proof.
  assert (H : forall i j n m, n = m -> shaped i n -> shaped j m -> In i (items c) -> In j (items c) -> i = j).
  2: { intros i j n A B I J. exact (H i j n n eq_refl A B I J). }
  intros i j n m E A B I J.
  assert (T : item_tag i = item_tag j) by (rewrite <- (shaped_tag i n A), <- (shaped_tag j m B), E; reflexivity).
  destruct A as [f k s If Kf Nk Sf Is|f s If Sf Is|f a p Ta|a d O|a d O|W|W| |a p Ta|];
  destruct B as [f' k' s' If' Kf' Nk' Sf' Is'|f' s' If' Sf' Is'|f' a' p' Ta'|a' d' O'|a' d' O'|W'|W'| |a' p' Ta'|];
    cbn [item_tag] in T; try discriminate T; try reflexivity; try discriminate E;
    try (rewrite W in T; discriminate T); try (rewrite W' in T; discriminate T);
    try (exfalso; exact (doc_new _ _ Is E)); try (exfalso; exact (doc_new _ _ Is' (eq_sym E)));
    try (exfalso; exact (doc_builder _ _ Is E)); try (exfalso; exact (doc_builder _ _ Is' (eq_sym E)));
    try (destruct (own_quiet _ _ O) as (Q1 & Q2 & Q3 & Q4 & Q5));
    try (destruct (own_quiet _ _ O') as (Q1' & Q2' & Q3' & Q4' & Q5'));
    try (exfalso; first [exact (doc_own _ _ _ Kf Is Q1' Q4' E)|exact (doc_own _ _ _ Kf Is Q2' Q5' E)
      |exact (doc_own _ _ _ Kf' Is' Q1 Q4 (eq_sym E))|exact (doc_own _ _ _ Kf' Is' Q2 Q5 (eq_sym E))]);
    try (exfalso; subst; first [exact (quiet_new Q1)|exact (quiet_new Q2)|exact (quiet_builder Q1)|exact (quiet_builder Q2)
      |exact (quiet_new Q1')|exact (quiet_new Q2')|exact (quiet_builder Q1')|exact (quiet_builder Q2')]).
  - destruct (quiet_apart k k' s s' Kf Kf' (ss_quiet s Is) (ss_quiet s' Is') E) as (-> & ->).
    rewrite (same_stem f f' s' If If' Sf Sf'). reflexivity.
  - unfold wrap_name in E. apply append_inj_l, (doc_inj KLazy) in E. subst s'.
    rewrite (same_stem f f' s If If' Sf Sf'). reflexivity.
  - apply unique_suffix in E. injection E as <-. rewrite (serde_number _ 0 f f' a (items_default f a I) (items_default f' a J)). reflexivity.
  - apply unique_suffix in E. injection E as <-. apply items_shadow in J. apply items_default in I.
    destruct (in_serde_items _ _ _ I) as (x & y & X & _ & _ & _ & L). injection X as _ <-. lia.
  - exfalso. destruct (own_fun _ _ _ _ O O') as (-> & ->). exact (Q3 E).
  - exfalso. destruct (own_fun _ _ _ _ O O') as (-> & ->). exact (Q3 (eq_sym E)).
  - apply unique_suffix in E. injection E as <-. apply items_shadow in I. apply items_default in J.
    destruct (in_serde_items _ _ _ J) as (x & y & X & _ & _ & _ & L). injection X as _ <-. lia.
  - apply unique_suffix in E. injection E as <-. reflexivity.
Qed.

Lemma fields_nodup : NoDup (c_input_fields c).
Proof.
  pose proof (ca_stems c ss K) as F. pose proof ss_nodup as N.
  assert (FN : forall f s t, In f (c_input_fields c) -> stem f s -> stem f t -> s = t) by exact stem_fun.
  clear K ok. revert F N FN. generalize (c_input_fields c). intros l F.
  induction F as [|a b l r H F IH]; intros N FN; [constructor|]. inversion N as [|? ? Nb Nr]; subst.
  constructor; [|apply IH; [exact Nr|intros f s t J; exact (FN f s t (or_intror J))]].
  intro J. destruct (forall2_left stem _ _ a F J) as (t & T & St). apply Nb.
  rewrite (FN a b t (or_introl eq_refl) H St). exact T.
Qed.
Lemma nodup_app : forall {A} (l r : list A), NoDup l -> NoDup r -> (forall x, In x l -> ~ In x r) -> NoDup (l ++ r)%list.
Proof.
  intros A l r Nl Nr D. induction Nl as [|x l X Nl IH]; [exact Nr|]. cbn. constructor.
  - intro I. apply in_app_or in I. destruct I as [I|I]; [exact (X I)|exact (D x (or_introl eq_refl) I)].
  - apply IH. intros y Y. apply D. right. exact Y.
Qed.
Lemma in_field_items : forall f i, In i (field_items c f) -> (exists k, i = IHelper f k) \/ i = IWrapper f.
Proof.
  intros f i I. unfold field_items in I. destruct (field_methods c f); [|destruct I|destruct I].
  apply in_app_or in I. destruct I as [I|I].
  - apply in_map_iff in I. destruct I as (m & <- & _). left. eexists. reflexivity.
  - destruct (wrapped c f); [|destruct I]. destruct I as [<-|[]]. right. reflexivity.
Qed.
Lemma field_items_nodup : forall f, NoDup (field_items c f).
Proof.
  intro f. unfold field_items. destruct (field_methods c f) as [l| |] eqn:E; [|constructor|constructor].
  apply nodup_app.
  - rewrite <- (map_map m_kind (IHelper f)). pose proof (emitted_once c f l E) as N. revert N. generalize (map m_kind l).
    intros ks N. induction N as [|k ks X N IH]; [constructor|]. cbn. constructor; [|exact IH].
    intro I. apply in_map_iff in I. destruct I as (k' & Q & I). injection Q as ->. exact (X I).
  - destruct (wrapped c f); repeat constructor; intros [].
  - intros x I J. apply in_map_iff in I. destruct I as (m & <- & _).
    destruct (wrapped c f); [|destruct J]. destruct J as [J|[]]. discriminate J.
Qed.
Lemma flat_nodup : forall l, NoDup l -> NoDup (flat_map (field_items c) l).
Proof.
  intros l N. induction N as [|f l X N IH]; [constructor|]. cbn. apply nodup_app; [apply field_items_nodup|exact IH|].
  intros i I J. apply in_flat_map in J. destruct J as (g & G & J).
  apply in_field_items in I. apply in_field_items in J.
  destruct I as [(k & ->)| ->], J as [(k' & E)|E]; try discriminate E; injection E as <-; try subst; exact (X G).
Qed.
Lemma items_nodup : NoDup (items c).
Proof.
  unfold items.
  assert (F : flat_map (field_items c) (all_fields c) = flat_map (field_items c) (c_input_fields c)).
  { unfold all_fields. rewrite flat_map_app.
    assert (X : flat_map (field_items c) (extra_fields c) = []); [|rewrite X; reflexivity].
    assert (Y : forall l, (forall f, In f l -> f_skip f = true) -> flat_map (field_items c) l = []).
    { induction l as [|f l IH]; intro A; [reflexivity|]. cbn. rewrite (IH (fun g G => A g (or_intror G))).
      unfold field_items. rewrite (skip_no_methods c f (A f (or_introl eq_refl))).
      unfold wrapped, f_is_skipped. rewrite (A f (or_introl eq_refl)). cbn. rewrite andb_false_r. reflexivity. }
    apply Y. intros f J. apply (in_extra f J). }
  rewrite F. apply nodup_app; [apply flat_nodup, fields_nodup| |].
  - apply nodup_app.
    + destruct (s_is_serde (c_args c)); [apply serde_nodup|constructor].
    + destruct (s_is_ref_counted (c_args c)), (needs_default c), (needs_builder_struct c), (s_is_serde (c_args c) && shadow_default_fn c),
        (copy_checked c); cbn; repeat constructor; cbn; intuition discriminate.
    + intros i I J. destruct (s_is_serde (c_args c)); [|destruct I].
      destruct (in_serde_items _ _ _ I) as (f & m & -> & _).
      repeat (apply in_app_or in J; destruct J as [J|J]).
      * destruct (s_is_ref_counted (c_args c)); cbn in J; intuition discriminate.
      * destruct (needs_default c); cbn in J; intuition discriminate.
      * destruct (needs_builder_struct c); cbn in J; intuition discriminate.
      * destruct (shadow_default_fn c); cbn in J; intuition discriminate.
      * destruct (copy_checked c); cbn in J; intuition discriminate.
  - intros i I J. apply in_flat_map in I. destruct I as (f & _ & I). apply in_field_items in I.
    repeat (apply in_app_or in J; destruct J as [J|J]).
    + destruct (s_is_serde (c_args c)); [|destruct J]. destruct (in_serde_items _ _ _ J) as (g & m & -> & _).
      destruct I as [(k & I)|I]; discriminate I.
    + destruct (s_is_ref_counted (c_args c)); cbn in J; [|tauto].
      destruct J as [<-|[<-|[]]]; destruct I as [(k & I)|I]; discriminate I.
    + destruct (needs_default c); cbn in J; [|tauto]. destruct J as [<-|[]]; destruct I as [(k & I)|I]; discriminate I.
    + destruct (needs_builder_struct c); cbn in J; [|tauto]. destruct J as [<-|[]]; destruct I as [(k & I)|I]; discriminate I.
    + destruct (s_is_serde (c_args c) && shadow_default_fn c); cbn in J; [|tauto].
      destruct J as [<-|[]]; destruct I as [(k & I)|I]; discriminate I.
    + destruct (copy_checked c); cbn in J; [tauto|]. destruct J as [<-|[]]; destruct I as [(k & I)|I]; discriminate I.
Qed.

Theorem items_distinct : exists names, map (item_ident c) (items c) = map GOk names /\ NoDup names.
Proof.
  assert (G : forall l, (forall i, In i l -> In i (items c)) -> NoDup l ->
    exists names, map (item_ident c) l = map GOk names /\ NoDup names
                  /\ forall n, In n names -> exists i, In i l /\ shaped i n).
  { induction l as [|i l IH]; intros A N; [exists []; split; [reflexivity|split; [constructor|intros n []]]|].
    inversion N as [|? ? X N']; subst.
    destruct (IH (fun j J => A j (or_intror J)) N') as (ns & E & D & S).
    destruct (all_shaped i (A i (or_introl eq_refl))) as (n & En & Sn).
    exists (n :: ns). split; [cbn; rewrite En, E; reflexivity|]. split.
    - constructor; [|exact D]. intro I. destruct (S n I) as (j & J & Sj). apply X.
      rewrite (shaped_same i j n Sn Sj (A i (or_introl eq_refl)) (A j (or_intror J))). exact J.
    - intros m [<-|M]; [exists i; split; [left; reflexivity|exact Sn]|].
      destruct (S m M) as (j & J & Sj). exists j. split; [right; exact J|exact Sj]. }
  destruct (G (items c) (fun i I => I) items_nodup) as (ns & E & D & _). exists ns. auto.
Qed.

(** The user's method is none of them. *)
Lemma lazy_free : forall f s i, In f (c_input_fields c) -> stem f s -> In i (items c) ->
  item_ident c i <> GOk ("build_" ++ s).
Proof.
  intros f s i J St I E. destruct (all_shaped i I) as (n & En & Sn). rewrite E in En. injection En as En.
  assert (Is : In s ss). { destruct (stem_in f J) as (t & T & S'). rewrite (stem_fun f s t J St S'). exact T. }
  assert (KL : In KLazy struct_kinds) by (unfold struct_kinds; cbn; tauto).
  change ("build_" ++ s) with (documented_name KLazy s) in *.
  assert (T : 4 = item_tag i) by (rewrite <- (shaped_tag i n Sn), <- En; symmetry; exact (doc_tag KLazy s (ss_quiet s Is))).
  destruct Sn as [g k t If Kf Nk Sf It|g t If Sf It|g a p Ta|a d O|a d O|W|W| |a p Ta|]; cbn [item_tag] in T;
    try discriminate T; try discriminate En.
  - destruct (quiet_apart KLazy k s t KL Kf (ss_quiet s Is) (ss_quiet t It) En) as (<- & _). exact (Nk eq_refl).
  - destruct (own_quiet a d O) as (Q1 & _ & _ & Q4 & _). exact (doc_own KLazy s a KL Is Q1 Q4 En).
  - destruct (own_quiet a d O) as (_ & Q2 & _ & _ & Q5). exact (doc_own KLazy s d KL Is Q2 Q5 En).
Qed.

(** A lazy field is tied to its own method. *)
Lemma field_item_in : forall f i, In f (c_input_fields c) -> In i (field_items c f) -> In i (items c).
Proof.
  intros f i J I. unfold items. apply in_or_app. left. apply in_flat_map. exists f. split; [|exact I].
  unfold all_fields. apply in_or_app. right. exact J.
Qed.
Theorem lazy_tied : forall f s l, In f (c_input_fields c) -> stem f s -> is_lazy c f = true ->
  field_methods c f = GOk l -> lazy_target c f = GOk (TUser ("build_" ++ s)).
Proof.
  intros f s l J St L E. unfold lazy_target, lazy_names. pose proof (ok_fields c ok f J) as H.
  assert (KI : helper_ident c f KLazy = GOk ("build_" ++ s))
    by exact (documented c f KLazy s H St (ca_unnamed c ss K f KLazy J)).
  destruct (is_sync c f && is_async c f) eqn:A.
  - assert (WI : lazy_wrapper_ident c f = GOk (wrap_name s)).
    { unfold lazy_wrapper_ident. rewrite KI. cbn [gbind].
      pose proof (documented_text KLazy s (stem_word f s H St)) as T. change ("build_" ++ s) with (documented_name KLazy s).
      rewrite (fragment_word _) by (apply ident_text_word, T). apply format_text.
      apply ident_text_app; [reflexivity|apply ident_text_chars, T]. }
    rewrite WI. cbn [gbind]. unfold called.
    assert (Wr : wrapped c f = true).
    { unfold wrapped. apply andb_true_iff in A. destruct A as (-> & ->). rewrite L.
      assert (Nk : f_is_skipped f = false).
      { destruct (f_is_skipped f) eqn:X; [|reflexivity]. destruct (skip_settings c f X) as (Y & _). congruence. }
      rewrite Nk. reflexivity. }
    assert (I : In (IWrapper f) (items c)).
    { apply (field_item_in f _ J). unfold field_items. rewrite E, Wr. apply in_or_app. right. left. reflexivity. }
    destruct (find (named_by c (wrap_name s)) (items c)) as [i|] eqn:F.
    + apply find_some in F. destruct F as (Fi & Fn). unfold named_by in Fn.
      destruct (item_ident c i) as [m| |] eqn:Em; try discriminate Fn. apply String.eqb_eq in Fn. subst m.
      destruct (all_shaped i Fi) as (n & En & Sn). rewrite Em in En. injection En as <-.
      destruct (all_shaped (IWrapper f) I) as (n & En & Sn'). cbn [item_ident] in En. rewrite WI in En. injection En as <-.
      rewrite (shaped_same _ _ _ Sn Sn' Fi I). rewrite KI. reflexivity.
    + exfalso. apply (find_none _ _ F) in I. unfold named_by in I. cbn [item_ident] in I. rewrite WI, String.eqb_refl in I.
      discriminate I.
  - rewrite KI. cbn [gbind]. unfold called. destruct (find (named_by c ("build_" ++ s)) (items c)) as [i|] eqn:F; [exfalso|reflexivity].
    apply find_some in F. destruct F as (Fi & Fn). unfold named_by in Fn.
    destruct (item_ident c i) as [m| |] eqn:Em; try discriminate Fn. apply String.eqb_eq in Fn. subst m.
    exact (lazy_free f s i J St Fi Em).
Qed.
End Struct.

(** ** The builder *)
Lemma setter_input : forall c f, In f (setter_fields c) -> In f (c_input_fields c).
Proof.
  intros c f I. apply filter_In in I. destruct I as (I & _). apply filter_In in I. destruct I as (I & S).
  apply in_app_or in I. destruct I as [I|I]; [|exact I]. destruct (in_extra c f I) as (X & _).
  unfold f_is_skipped in S. rewrite X in S. discriminate S.
Qed.
Lemma map_doc : forall c l ss, Forall2 stem l ss ->
  (forall f, In f l -> field_names_ok f /\ unnamed c f KBuilder) -> map (fun f => helper_ident c f KBuilder) l = map GOk ss.
Proof.
  intros c l ss F. induction F as [|f s l ss St F IH]; intro A; [reflexivity|]. cbn [map].
  destruct (A f (or_introl eq_refl)) as (H & U). rewrite (documented c f KBuilder s H St U).
  rewrite (IH (fun g G => A g (or_intror G))). reflexivity.
Qed.
Lemma gok_inj : forall a b, map (@GOk string) a = map GOk b -> a = b.
Proof.
  induction a as [|x a IH]; intros [|y b] E; try discriminate E; [reflexivity|]. injection E as -> E. rewrite (IH b E). reflexivity.
Qed.
Lemma builder_exact : forall c ss, ok_input c -> Forall2 stem (setter_fields c) ss ->
  (forall f, In f (setter_fields c) -> unnamed c f KBuilder) ->
  exists names, builder_items c = map GOk names
    /\ (NoDup names <-> NoDup ss /\ ~ In "new" ss /\ ~ In "build" ss).
Proof.
  intros c ss ok F U. exists ("new" :: ss ++ ["build"])%list. split.
  - unfold builder_items. rewrite (map_doc c _ ss F).
    + cbn. rewrite map_app. reflexivity.
    + intros f I. split; [apply (ok_fields c ok), setter_input, I|apply U, I].
  - assert (X : NoDup (ss ++ ["build"]) <-> NoDup ss /\ ~ In "build" ss).
    { pose proof (NoDup_Add (Add_app "build" ss [])) as A. rewrite app_nil_r in A. exact A. }
    split.
    + intro N. inversion N as [|? ? A B]; subst. apply X in B. destruct B as (B & D). split; [exact B|]. split; [|exact D].
      intro I. apply A, in_or_app. left. exact I.
    + intros (A & B & D). constructor; [|apply X; auto]. intro I. apply in_app_or in I.
      destruct I as [I|[I|[]]]; [exact (B I)|discriminate I].
Qed.
