(** Running the conversions of SerdeModel.v: exact results. *)
From Coq Require Import List Bool String Arith Lia.
From Verif Require Import ProxyTypes ArgsModel CtxModel RustAst CommonGen PlainGen SyncGen StructGen
  RustTyping CodegenSpec CodegenProofs CodegenValues CodegenStruct RustSem FieldSpec FieldRun SerdeSpec SerdeModel.
Import ListNotations.
Open Scope string_scope.

Lemma told_arg_is s : told_arg s = serde_default_arg s.
Proof. destruct s as [[? ? ? ? ? ? ? [[[] v str]|] ?]|]; reflexivity. Qed.

(** ** One field by its settings *)
Section One.
Variable bl : nat -> outcome nat nat.
Variables fal alive : bool.
Variable dflt : nat.
Variable user : string -> nat.
Notation run t e v := (run_value bl fal alive dflt user t e v).
Notation ev e s := (eval bl fal alive dflt user [("__me", VSelf)] e s).

Definition g_held (async : bool) (k : option nat) : option (option nat) :=
  match k with
  | Some n => Some (Some n)
  | None => if async then Some None
            else match bl 0 with
                 | BOk n => Some (Some n)
                 | BErr _ => if fal then Some None else None
                 | BPanic => None
                 end
  end.
Definition g_builds (async : bool) (k : option nat) : nat :=
  match k with Some _ => 0 | None => if async then 0 else 1 end.
Definition init_claim (async : bool) (t : ty) (e : expr) : Prop := forall k v, rep t k = Some v ->
  match g_held async k with
  | None => exists s, ev e (mk_st v 0 false 0) = Panic s
  | Some k' => exists r s, ev e (mk_st v 0 false 0) = Ok r s /\ rep t k' = Some (fld s) /\
                 calls s = g_builds async k
  end.
Lemma plain_init_runs : forall g, g_lazy g = true -> g_fallible g = fal ->
  init_claim false (plain_type g) (plain_lazy_init_of g "__me").
Proof.
  intros g Hl Hf. unfold init_claim, g_held, g_builds, plain_type, plain_lazy_init_of, get_or_init.
  rewrite Hl, Hf. unfold call_builder.
  destruct fal; intros k v H; cbn in H; injection H as <-;
  (destruct k as [k|]; cbn; [eexists; eexists; repeat split; reflexivity|]);
  unfold call_builder; cbn; destruct (bl 0) as [n|er|]; cbn; try (eexists; reflexivity);
  eexists; eexists; repeat split; reflexivity.
Qed.
Lemma sync_init_runs : forall g t, g_lazy g = true -> g_skip g = false -> sync_type g = GOk t ->
  init_claim (g_async g) t (sync_lazy_init_of "__me").
Proof.
  intros g t Hl Hs Ht. unfold sync_type in Ht. destruct (wrapper_type_ok g); try discriminate.
  cbn in Ht. rewrite Hs, Hl in Ht. injection Ht as <-.
  unfold init_claim, g_held, g_builds, sync_lazy_init_of.
  destruct (g_async g); intros k v H; cbn in H; injection H as <-.
  - destruct k as [k|]; cbn; eexists; eexists; repeat split; reflexivity.
  - destruct k as [k|]; cbn; [eexists; eexists; repeat split; reflexivity|].
    destruct (bl 0) as [n|er|]; cbn; try destruct fal; cbn; try (eexists; reflexivity);
    eexists; eexists; repeat split; reflexivity.
Qed.

Lemma plain_fetch_runs : forall g k v, rep (plain_type g) k = Some v ->
  exists w r, run (shadow_type g) (plain_from_struct g) v = inl (Some (w, r)) /\
    rep (shadow_type g) k = Some w.
Proof.
  intros g k v H. destruct g. unfold plain_type, plain_from_struct, shadow_type, serde_optional in *. cbn in *.
  destruct g_lazy, g_optional, g_inner_mut; cbn in *; destruct k as [k|]; cbn in *;
    try discriminate H; injection H as <-; cbn; eexists; eexists; split; reflexivity.
Qed.
Lemma sync_fetch_runs : forall g t k v, sync_type g = GOk t -> g_skip g = false ->
  g_lazy g || g_lock g || negb (g_optional g) = true -> rep t k = Some v ->
  exists w r, run (shadow_type g) (sync_from_struct g) v = inl (Some (w, r)) /\
    rep (shadow_type g) k = Some w.
Proof.
  intros g t k v Ht Hs Hc H. destruct g. unfold sync_type, sync_from_struct, shadow_type, serde_optional,
    wrapper_type_ok, maybe_locked, maybe_optional in *. cbn in *. rewrite Hs in *.
  destruct g_fallible, g_error_known; cbn in *; try discriminate Ht; injection Ht as <-;
  destruct g_lazy, g_optional, g_lock; cbn in *; try discriminate Hc; destruct k as [k|]; cbn in *;
    try discriminate H; injection H as <-; cbn; eexists; eexists; split; reflexivity.
Qed.

Definition g_own (g : fcfg) : option nat :=
  match g_default g with
  | Some d => Some (user (fst d))
  | None => if g_lazy g || g_optional g then None else Some dflt
  end.
Lemma plain_default_runs : forall g e v0, plain_default_wrap g = GOk e ->
  exists v r, run (plain_type g) e v0 = inl (Some (v, r)) /\ rep (plain_type g) (g_own g) = Some v.
Proof.
  intros g e v0 H. destruct g. unfold plain_default_wrap, plain_value_wrap, field_default_value, plain_type,
    g_own, default_expr in *. cbn in *.
  destruct g_default as [[d []]|], g_lazy, g_optional, g_inner_mut; cbn in *; try discriminate H;
    injection H as <-; cbn; eexists; eexists; split; reflexivity.
Qed.
Lemma sync_default_runs : forall g t e v0, sync_type g = GOk t -> sync_default_wrap g = GOk e ->
  has_type (in_default true TUnit) e t = true ->
  exists v r, run t e v0 = inl (Some (v, r)) /\ rep t (g_own g) = Some v.
Proof.
  intros g t e v0 Ht H Hy. destruct g. unfold sync_type, sync_default_wrap, sync_value_wrap, field_default_value,
    wrap_builder, sync_type, wrapper_type_ok, g_own, default_expr, maybe_locked, maybe_optional in *. cbn in *.
  destruct g_fallible, g_error_known; cbn in *; try discriminate Ht; injection Ht as <-;
  destruct g_skip, g_default as [[d []]|], g_lazy, g_optional, g_lock; cbn in *; try discriminate H;
    injection H as <-; try destruct g_async; cbn in *; try discriminate Hy;
    eexists; eexists; split; reflexivity.
Qed.

(** Reading a shadow field. *)
Definition g_kept (sync : bool) (g : fcfg) (k : option nat) : option nat :=
  match k with Some n => Some n | None => if sync then None else g_own g end.
Lemma plain_read_runs : forall g k w, rep (shadow_type g) k = Some w ->
  exists e v r, plain_from_shadow g = GOk e /\ run (plain_type g) e w = inl (Some (v, r)) /\
    rep (plain_type g) (g_kept false g k) = Some v.
Proof.
  intros g k w H. destruct g. unfold plain_from_shadow, plain_default_wrap, plain_value_wrap, field_default_value,
    plain_type, g_kept, g_own, default_expr, shadow_type, serde_optional in *. cbn in *.
  destruct g_default as [[d []]|], g_lazy, g_optional, g_inner_mut; cbn in *; destruct k as [k|]; cbn in *;
    try discriminate H; injection H as <-; cbn; eexists; eexists; eexists; repeat split; reflexivity.
Qed.
Lemma sync_read_runs : forall g t k w, sync_type g = GOk t -> g_skip g = false ->
  rep (shadow_type g) k = Some w ->
  exists e v r, sync_from_shadow g = GOk e /\ run t e w = inl (Some (v, r)) /\
    rep t (g_kept true g k) = Some v.
Proof.
  intros g t k w Ht Hs H. destruct g. unfold sync_from_shadow, sync_value_wrap, wrap_builder, sync_type, wrapper_type_ok,
    g_kept, shadow_type, serde_optional, maybe_locked, maybe_optional in *. cbn in *. rewrite Hs in *.
  destruct g_fallible, g_error_known; cbn in *; try discriminate Ht; injection Ht as <-;
  destruct g_lazy, g_optional, g_lock; cbn in *; try destruct g_async; destruct k as [k|]; cbn in *;
    try discriminate H; injection H as <-; cbn; eexists; eexists; eexists; repeat split; reflexivity.
Qed.
Lemma shadow_default_runs : forall g v0,
  exists v r, run (shadow_type g) (shadow_default g) v0 = inl (Some (v, r)) /\
    rep (shadow_type g) (g_own g) = Some v.
Proof.
  intros g v0. destruct g. unfold shadow_default, field_default_value, g_own, default_expr, shadow_type, serde_optional. cbn.
  destruct g_default as [[d []]|], g_lazy, g_optional; cbn; eexists; eexists; split; reflexivity.
Qed.
End One.

(** ** Fields of a struct *)
Section Struct.
Variable bld : string -> nat -> outcome nat nat.
Variable alive : bool.
Variable dflt : nat.
Variable user : string -> nat.
Variable named : string -> option nat.
Variable given : field -> option nat.
Variable c : sctx.
Notation own_default := (own_default dflt user c).

Definition waits (f : field) : bool := is_sync c f && is_async c f.
(** What a lazy field holds after its initialiser. *)
Definition held (f : field) (k : option nat) : option (option nat) :=
  g_held (bld (f_ident f)) (is_fallible c f) (waits f) k.
Definition kept_content (f : field) (k : option nat) : option nat :=
  match k with Some n => Some n | None => if is_sync c f then None else own_default f end.

Lemma lazy_init_runs : forall f t k v, f_skip f = false -> is_lazy c f = true ->
  field_type c f = GOk t -> rep t k = Some v ->
  match held f k with
  | None => lazy_init bld alive dflt user c f v = WPanic
  | Some k' => exists v', rep t k' = Some v' /\
      lazy_init bld alive dflt user c f v = WDone v' [g_builds (waits f) k]
  end.
Proof.
  intros f t k v Hs Hl Ht Hv. unfold lazy_init, held, waits, field_type, field_lazy_init in *.
  destruct (is_sync c f); cbn [andb].
  - pose proof (sync_init_runs (bld (f_ident f)) (is_fallible c f) alive dflt user (cfg_of c f) t Hl Hs Ht k v Hv) as H.
    cbn [g_async cfg_of] in H. destruct (g_held _ _ _ k) as [k'|].
    + destruct H as (r & s & E & R & C). rewrite E. exists (fld s). rewrite C. auto.
    + destruct H as (s & E). now rewrite E.
  - injection Ht as <-.
    pose proof (plain_init_runs (bld (f_ident f)) (is_fallible c f) alive dflt user (cfg_of c f) Hl eq_refl k v Hv) as H.
    destruct (g_held _ _ _ k) as [k'|].
    + destruct H as (r & s & E & R & C). rewrite E. exists (fld s). rewrite C. auto.
    + destruct H as (s & E). now rewrite E.
Qed.
Lemma fetch_runs : forall f t k v, f_skip f = false -> field_type c f = GOk t ->
  has_type (in_into_shadow true t TUnit) (field_from_struct c f) (shadow_type (cfg_of c f)) = true ->
  rep t k = Some v ->
  exists w r, run_value (bld (f_ident f)) (is_fallible c f) alive dflt user (shadow_type (cfg_of c f))
                (field_from_struct c f) v = inl (Some (w, r)) /\ rep (shadow_type (cfg_of c f)) k = Some w.
Proof.
  intros f t k v Hs Ht Hy Hv. rewrite (from_struct_typed c f true TUnit t Ht Hs) in Hy.
  unfold field_type, field_from_struct in *. destruct (is_sync c f).
  - apply (sync_fetch_runs _ _ _ _ _ (cfg_of c f) t k v); auto. cbn.
    destruct (is_lazy c f), (is_optional c f), (needs_lock c f); auto; discriminate.
  - injection Ht as <-. now apply plain_fetch_runs.
Qed.
Lemma read_runs : forall f t k w, f_skip f = false -> field_type c f = GOk t ->
  rep (shadow_type (cfg_of c f)) k = Some w ->
  exists v, field_value bld alive dflt user c t (field_from_shadow c f) f w = Some v /\
    rep t (kept_content f k) = Some v.
Proof.
  intros f t k w Hs Ht Hw. unfold field_type, field_from_shadow, field_value, kept_content in *.
  destruct (is_sync c f).
  - destruct (sync_read_runs (bld (f_ident f)) (is_fallible c f) alive dflt user (cfg_of c f) t k w Ht Hs Hw)
      as (e & v & r & E & R & V). rewrite E, R. now exists v.
  - injection Ht as <-.
    destruct (plain_read_runs (bld (f_ident f)) (is_fallible c f) alive dflt user (cfg_of c f) k w Hw)
      as (e & v & r & E & R & V). rewrite E, R. now exists v.
Qed.
Lemma default_runs : forall f t, field_type c f = GOk t ->
  (forall e, field_default c f = GOk e -> has_type (in_default true TUnit) e t = true) ->
  exists v, default_value_of bld alive dflt user c f = Some v /\ rep t (own_default f) = Some v.
Proof.
  intros f t Ht Hy. unfold default_value_of. rewrite Ht. unfold field_value.
  assert (He : exists e, field_default c f = GOk e).
  { destruct (f_skip f) eqn:Hs.
    - destruct (skip_default c f true TUnit t Hs Ht) as (e & E & _). eauto.
    - destruct (default_typed c f true TUnit t Ht Hs) as (e & E & _). eauto. }
  destruct He as (e & E). rewrite E. specialize (Hy e E). unfold field_type, field_default in *.
  destruct (is_sync c f).
  - destruct (sync_default_runs (bld (f_ident f)) (is_fallible c f) alive dflt user (cfg_of c f) t e VUnit Ht E Hy)
      as (v & r & R & V). rewrite R. now exists v.
  - injection Ht as <-.
    destruct (plain_default_runs (bld (f_ident f)) (is_fallible c f) alive dflt user (cfg_of c f) e VUnit E)
      as (v & r & R & V). rewrite R. now exists v.
Qed.

(** ** Writing *)
Definition w_ser (f : field) : bool := is_serde c f && needs_serialize c f.
Definition w_des (f : field) : bool := is_serde c f && needs_deserialize c f.
(** Contents after the initialisers; [None]: one of them panics. *)
Definition held_by (f : field) (k : option nat) : option (option nat) :=
  if w_ser f && is_lazy c f then held f k else Some k.
Fixpoint all_held (fs : list field) (ks : list (option nat)) : option (list (option nat)) :=
  match fs, ks with
  | f :: fs', k :: ks' =>
      match held_by f k, all_held fs' ks' with
      | Some k', Some r => Some (k' :: r)
      | _, _ => None
      end
  | _, _ => Some []
  end.
Fixpoint all_builds (fs : list field) (ks : list (option nat)) : list nat :=
  match fs, ks with
  | f :: fs', k :: ks' =>
      (if w_ser f && is_lazy c f then [g_builds (waits f) k] else []) ++ all_builds fs' ks'
  | _, _ => []
  end.
Lemma serde_not_skipped : forall f, is_serde c f = true -> f_skip f = false.
Proof. intros f. unfold is_serde, f_is_skipped. destruct (f_skip f); [discriminate|reflexivity]. Qed.
Lemma lazy_inits_run : forall fs ks o, stores c fs ks o ->
  match all_held fs ks with
  | None => lazy_inits bld alive dflt user c fs o = WPanic
  | Some ks' => exists o', stores c fs ks' o' /\
      lazy_inits bld alive dflt user c fs o = WDone o' (all_builds fs ks)
  end.
Proof.
  induction fs as [|f fs IH]; intros [|k ks] [|v o] H; try contradiction; cbn [all_held].
  - exists []. auto.
  - destruct H as [(t & Ht & Hv) H]. specialize (IH ks o H). cbn [lazy_inits all_builds].
    unfold held_by, w_ser. destruct (is_serde c f && needs_serialize c f && is_lazy c f) eqn:E.
    + apply andb_true_iff in E. destruct E as [E El]. apply andb_true_iff in E. destruct E as [E1 E2].
      pose proof (lazy_init_runs f t k v (serde_not_skipped f E1) El Ht Hv) as L.
      destruct (held f k) as [k'|].
      * destruct L as (v' & R & L). rewrite L. destruct (all_held fs ks) as [ks'|].
        -- destruct IH as (o' & S & IH). rewrite IH. exists (v' :: o'). cbn. eauto 6.
        -- now rewrite IH.
      * now rewrite L.
    + destruct (all_held fs ks) as [ks'|].
      * destruct IH as (o' & S & IH). rewrite IH. exists (v :: o'). cbn. eauto 6.
      * now rewrite IH.
Qed.
(** Contents of the shadow. *)
Fixpoint shadow_stores (fs : list field) (ks : list (option nat)) (s : list val) : Prop :=
  match fs, ks, s with
  | [], [], [] => True
  | f :: fs', k :: ks', v :: s' =>
      rep (shadow_type (cfg_of c f)) k = Some v /\ shadow_stores fs' ks' s'
  | _, _, _ => False
  end.
Fixpoint shadow_contents (fs : list field) (ks : list (option nat)) : list (option nat) :=
  match fs, ks with
  | f :: fs', k :: ks' => if is_serde c f then k :: shadow_contents fs' ks' else shadow_contents fs' ks'
  | _, _ => []
  end.
Lemma all_fetched : forall fs ks o, stores c fs ks o ->
  (forall f, In f fs -> is_serde c f = true -> needs_serialize c f = true) ->
  (forall f t, In f fs -> w_ser f = true -> field_type c f = GOk t ->
    has_type (in_into_shadow true t TUnit) (field_from_struct c f) (shadow_type (cfg_of c f)) = true) ->
  exists s, fetch bld alive dflt user c fs o = Some s /\
    shadow_stores (filter (is_serde c) fs) (shadow_contents fs ks) s.
Proof.
  induction fs as [|f fs IH]; intros [|k ks] [|v o] H Hw Hy; try contradiction.
  - exists []. cbn. auto.
  - destruct H as [(t & Ht & Hv) H].
    destruct (IH ks o H (fun g i => Hw g (or_intror i)) (fun g u i => Hy g u (or_intror i))) as (s & E & S).
    cbn [fetch filter shadow_contents]. destruct (is_serde c f) eqn:Es.
    + pose proof (Hw f (or_introl eq_refl) Es) as Hn. rewrite Hn.
      assert (Hwf : w_ser f = true) by (unfold w_ser; now rewrite Es, Hn).
      destruct (fetch_runs f t k v (serde_not_skipped f Es) Ht (Hy f t (or_introl eq_refl) Hwf Ht) Hv)
        as (w & r & R & W). rewrite R, E. exists (w :: s). cbn. auto.
    + rewrite E. exists s. auto.
Qed.
Fixpoint doc_of (fs : list field) (ks : list (option nat)) : document :=
  match fs, ks with
  | f :: fs', k :: ks' => if w_ser f then (doc_key f, k) :: doc_of fs' ks' else doc_of fs' ks'
  | _, _ => []
  end.
Lemma shown_rep : forall g k w, rep (shadow_type g) k = Some w -> shown w = Some k.
Proof.
  intros g k w. unfold shadow_type. destruct (serde_optional g), k as [k|]; cbn; intros H;
    try discriminate H; injection H as <-; reflexivity.
Qed.
Lemma skip_written : forall f, s_is_serde (c_args c) = true ->
  is_serde c f = true -> fst (shadow_skip c f) = negb (needs_serialize c f).
Proof.
  intros f Hs E. unfold shadow_skip. rewrite Hs, E. cbn.
  destruct (needs_serialize c f), (needs_deserialize c f); reflexivity.
Qed.
Lemma skip_read : forall f, s_is_serde (c_args c) = true ->
  is_serde c f = true -> snd (shadow_skip c f) = negb (needs_deserialize c f).
Proof.
  intros f Hs E. pose proof (is_serde_either c f) as H. pose proof (serialized_field c f) as S.
  pose proof (deserialized_field c f) as D. unfold shadow_skip. rewrite Hs, E in *. cbn in *.
  destruct (needs_serialize c f), (needs_deserialize c f); cbn; try reflexivity.
  symmetry in H. apply andb_true_iff in H. destruct H as [H1 H2]. rewrite H1 in *. cbn in *.
  rewrite <- S, <- D in H2. discriminate.
Qed.
Lemma shadow_shown : forall fs ks s, s_is_serde (c_args c) = true ->
  List.length ks = List.length fs ->
  shadow_stores (filter (is_serde c) fs) (shadow_contents fs ks) s ->
  show_shadow c (filter (is_serde c) fs) s = Some (doc_of fs ks).
Proof.
  intros fs ks s Hs. revert ks s. induction fs as [|f fs IH]; intros [|k ks] s L H; try discriminate L.
  - destruct s; [reflexivity|contradiction].
  - cbn [filter shadow_contents doc_of] in *. unfold w_ser. destruct (is_serde c f) eqn:Es; cbn [andb].
    + destruct s as [|w s]; [contradiction|]. destruct H as [W H]. cbn [show_shadow].
      rewrite (IH ks s) by (cbn in L; auto). rewrite (skip_written f Hs Es).
      destruct (needs_serialize c f); cbn [negb]; [|reflexivity]. now rewrite (shown_rep _ _ _ W).
    + apply IH; auto.
Qed.
Lemma stores_length : forall fs ks o, stores c fs ks o -> List.length ks = List.length fs.
Proof.
  induction fs as [|f fs IH]; intros [|k ks] [|v o] H; try contradiction; [reflexivity|].
  destruct H as [_ H]. cbn. f_equal. eauto.
Qed.
Lemma into_ready : into_compiles c -> NoDup (map f_ident (all_fields c)) ->
  s_is_serde (c_args c) = true /\
  forall f, In f (all_fields c) -> is_serde c f = true -> needs_serialize c f = true.
Proof.
  intros (He & Hc & _) Hn. unfold into_shadow_emitted in He. apply andb_true_iff in He. destruct He as [He _].
  split; [exact He|]. rewrite serde_on_struct in He.
  pose proof (proj1 (into_shadow_complete c Hn He) Hc) as H. intros f Hf Es.
  pose proof (is_serde_either c f) as Hi. rewrite Es, He in Hi. cbn in Hi. symmetry in Hi.
  pose proof (serialized_field c f) as S. rewrite Es, He in S. cbn in S. rewrite S.
  destruct (field_serializes f) eqn:E; [reflexivity|]. cbn in Hi. rewrite <- E. now apply H.
Qed.
Lemma serialise_runs : forall ks o, into_compiles c -> NoDup (map f_ident (all_fields c)) ->
  stores c (all_fields c) ks o ->
  serialise bld alive dflt user c o =
  match all_held (all_fields c) ks with
  | None => WPanic
  | Some ks' => WDone (doc_of (all_fields c) ks') (all_builds (all_fields c) ks)
  end.
Proof.
  intros ks o Hc Hn H. destruct (into_ready Hc Hn) as [Hs Hw]. destruct Hc as (He & _ & Hy).
  unfold serialise, into_shadow. rewrite He. pose proof (lazy_inits_run _ _ _ H) as L.
  destruct (all_held (all_fields c) ks) as [ks'|]; [|now rewrite L].
  destruct L as (o' & S & L). rewrite L.
  destruct (all_fetched _ _ _ S Hw) as (s & E & T).
  { intros f t Hf Hwf. apply Hy. unfold serialized. apply filter_In. auto. }
  rewrite E. unfold shadow_input.
  rewrite (shadow_shown _ _ _ Hs (stores_length _ _ _ S) T). reflexivity.
Qed.

(** ** Reading *)
Notation told := (told dflt user named given c).
Lemma of_default_rep : forall g, of_default dflt (shadow_type g)
  = rep (shadow_type g) (if serde_optional g then None else Some dflt).
Proof. intros g. unfold shadow_type. destruct (serde_optional g); reflexivity. Qed.
Lemma optional_is : forall f, serde_optional (cfg_of c f) = is_lazy c f || is_optional c f.
Proof. intros f. unfold serde_optional. cbn. apply orb_comm. Qed.
Lemma shadow_value_rep : forall g n, rep (shadow_type g) (Some n) = Some (shadow_value g n).
Proof. intros g n. unfold shadow_type, shadow_value. destruct (serde_optional g); reflexivity. Qed.
Lemma rep_some : forall g k, (serde_optional g = false -> k <> None) -> exists v, rep (shadow_type g) k = Some v.
Proof.
  intros g k H. unfold shadow_type. destruct (serde_optional g); [destruct k; eexists; reflexivity|].
  destruct k; [eexists; reflexivity|]. now destruct (H eq_refl).
Qed.
Lemma missing_runs : forall f, defaults_make_sense named given c -> In f (shadow_input c) ->
  snd (shadow_skip c f) = false ->
  match told f with
  | Some k => exists v, missing bld alive dflt user named given c f = RDone v /\
                rep (shadow_type (cfg_of c f)) k = Some v
  | None => missing bld alive dflt user named given c f
            = if serde_optional (cfg_of c f) then RDone VNone else RRefused
  end.
Proof.
  intros f [H1 H2] Hin Hsk. unfold told, missing, field_missing, struct_missing. rewrite !told_arg_is.
  destruct (serde_default_arg (f_serde f)) as [d|] eqn:E.
  - destruct (d_value d) as [t|] eqn:Ed.
    + destruct (d_is_str d) eqn:Es.
      * assert (Hr : exists v, rep (shadow_type (cfg_of c f)) (named t) = Some v).
        { apply rep_some. rewrite optional_is. intros Ho. exact (H1 f d t Hin E Ed Es Ho). }
        destruct Hr as (v & Hr). rewrite Hr. now exists v.
      * eexists. split; [reflexivity|]. apply shadow_value_rep.
    + rewrite of_default_rep, <- optional_is.
      destruct (rep_some (cfg_of c f) (if serde_optional (cfg_of c f) then None else Some dflt)) as (v & Hr).
      { intros ->. discriminate. }
      rewrite Hr. now exists v.
  - destruct (serde_default_arg (s_serde (c_args c))) as [d|] eqn:E'.
    + specialize (H2 d eq_refl). destruct (d_value d) as [t|] eqn:Ed.
      * destruct (rep_some (cfg_of c f) (given f)) as (v & Hr).
        { rewrite optional_is. apply H2, Hin. }
        rewrite Hr. now exists v.
      * rewrite H2.
        destruct (shadow_default_runs (bld (f_ident f)) (is_fallible c f) alive dflt user (cfg_of c f) VUnit)
          as (v & r & R & V). rewrite R. exists v. split; [reflexivity|exact V].
    + now rewrite Hsk.
Qed.
Lemma missing_skipped : forall f, defaults_make_sense named given c -> In f (shadow_input c) ->
  snd (shadow_skip c f) = true ->
  exists k v, missing bld alive dflt user named given c f = RDone v /\
    rep (shadow_type (cfg_of c f)) k = Some v.
Proof.
  intros f [H1 H2] Hin Hsk. unfold missing, field_missing, struct_missing.
  destruct (serde_default_arg (f_serde f)) as [d|] eqn:E.
  - destruct (d_value d) as [t|] eqn:Ed.
    + destruct (d_is_str d) eqn:Es.
      * assert (Hr : exists v, rep (shadow_type (cfg_of c f)) (named t) = Some v).
        { apply rep_some. rewrite optional_is. intros Ho. exact (H1 f d t Hin E Ed Es Ho). }
        destruct Hr as (v & Hr). rewrite Hr. eauto.
      * eexists. eexists. split; [reflexivity|]. apply shadow_value_rep.
    + rewrite of_default_rep.
      destruct (rep_some (cfg_of c f) (if serde_optional (cfg_of c f) then None else Some dflt)) as (v & Hr).
      { intros ->. discriminate. }
      rewrite Hr. eauto.
  - destruct (serde_default_arg (s_serde (c_args c))) as [d|] eqn:E'.
    + specialize (H2 d eq_refl). destruct (d_value d) as [t|] eqn:Ed.
      * destruct (rep_some (cfg_of c f) (given f)) as (v & Hr).
        { rewrite optional_is. apply H2, Hin. }
        rewrite Hr. eauto.
      * rewrite H2.
        destruct (shadow_default_runs (bld (f_ident f)) (is_fallible c f) alive dflt user (cfg_of c f) VUnit)
          as (v & r & R & V). rewrite R. eauto.
    + rewrite Hsk, of_default_rep.
      destruct (rep_some (cfg_of c f) (if serde_optional (cfg_of c f) then None else Some dflt)) as (v & Hr).
      { intros ->. discriminate. }
      rewrite Hr. eauto.
Qed.

(** What a field of the shadow is read to; [None]: refused. *)
Definition taken_for (f : field) (d : document) : option (option nat) :=
  match look d (doc_key f) with
  | Some (Some n) => Some (Some n)
  | Some None => if serde_optional (cfg_of c f) then Some None else None
  | None => match told f with
            | Some k => Some k
            | None => if serde_optional (cfg_of c f) then Some None else None
            end
  end.
Lemma read_field_runs : forall f d, s_is_serde (c_args c) = true ->
  defaults_make_sense named given c -> In f (shadow_input c) ->
  if needs_deserialize c f then
    match taken_for f d with
    | Some k => exists v, read_field bld alive dflt user named given c f d = RDone v /\
                  rep (shadow_type (cfg_of c f)) k = Some v
    | None => read_field bld alive dflt user named given c f d = RRefused
    end
  else exists k v, read_field bld alive dflt user named given c f d = RDone v /\
         rep (shadow_type (cfg_of c f)) k = Some v.
Proof.
  intros f d Hs Hm Hin. assert (Es : is_serde c f = true) by (apply filter_In in Hin; tauto).
  unfold read_field, taken_for. rewrite (skip_read f Hs Es).
  destruct (needs_deserialize c f) eqn:En; cbn [negb].
  - destruct (look d (doc_key f)) as [[n|]|].
    + eexists. split; [reflexivity|apply shadow_value_rep].
    + destruct (serde_optional (cfg_of c f)) eqn:Eo; [|reflexivity].
      eexists. split; [reflexivity|]. unfold shadow_type. now rewrite Eo.
    + pose proof (missing_runs f Hm Hin) as H. rewrite (skip_read f Hs Es), En in H. specialize (H eq_refl).
      destruct (told f) as [k|]; [exact H|]. rewrite H.
      destruct (serde_optional (cfg_of c f)) eqn:Eo; [|reflexivity].
      eexists. split; [reflexivity|]. unfold shadow_type. now rewrite Eo.
  - apply missing_skipped; auto. rewrite (skip_read f Hs Es), En. reflexivity.
Qed.
(** The shadow read from a document, known for the fields that are read. *)
Fixpoint read_to (fs : list field) (d : document) (s : list val) : Prop :=
  match fs, s with
  | [], [] => True
  | f :: fs', v :: s' =>
      (needs_deserialize c f = true -> exists k, taken_for f d = Some k /\
         rep (shadow_type (cfg_of c f)) k = Some v) /\ read_to fs' d s'
  | _, _ => False
  end.
Definition accepts (f : field) (d : document) : bool :=
  negb (w_des f) || is_some (taken_for f d).
Lemma read_shadow_runs : forall fs d, s_is_serde (c_args c) = true ->
  defaults_make_sense named given c -> incl fs (shadow_input c) ->
  if forallb (fun f => accepts f d) fs
  then exists s, read_shadow bld alive dflt user named given c fs d = RDone s /\ read_to fs d s
  else read_shadow bld alive dflt user named given c fs d = RRefused.
Proof.
  intros fs d Hs Hm. induction fs as [|f fs IH]; intros Hi.
  - exists []. split; [reflexivity|exact I].
  - assert (Hin : In f (shadow_input c)) by (apply Hi; left; reflexivity).
    assert (Es : is_serde c f = true) by (apply filter_In in Hin; tauto).
    specialize (IH (fun g i => Hi g (or_intror i))). cbn [forallb read_shadow].
    pose proof (read_field_runs f d Hs Hm Hin) as R. unfold accepts at 1, w_des at 1. rewrite Es. cbn [andb].
    destruct (needs_deserialize c f) eqn:En; cbn [negb orb].
    + destruct (taken_for f d) as [k|] eqn:Et; cbn [is_some andb].
      * destruct R as (v & R & V). rewrite R. destruct (forallb _ fs).
        -- destruct IH as (s & E & T). rewrite E. exists (v :: s). split; [reflexivity|]. cbn.
           split; [|exact T]. intros _. exists k. auto.
        -- now rewrite IH.
      * rewrite R. destruct (forallb _ fs); [|now rewrite IH].
        destruct IH as (s & E & _). now rewrite E.
    + destruct R as (k & v & R & V). rewrite R. cbn [andb]. destruct (forallb _ fs).
      * destruct IH as (s & E & T). rewrite E. exists (v :: s). split; [reflexivity|]. cbn.
        split; [|exact T]. intros H. congruence.
      * now rewrite IH.
Qed.
(** What the struct then holds. *)
Definition read_content (f : field) (d : document) : option nat :=
  if w_des f then match taken_for f d with Some k => kept_content f k | None => None end
  else own_default f.
Lemma from_fields_run : forall fs d s base,
  (forall f, In f fs -> exists t, field_type c f = GOk t) ->
  read_to (filter (is_serde c) fs) d s ->
  match base with
  | Some b => stores c fs (map own_default fs) b
  | None => forall f, In f fs -> w_des f = true
  end ->
  exists o, from_fields bld alive dflt user c fs s base = Some o /\
    stores c fs (map (fun f => read_content f d) fs) o.
Proof.
  induction fs as [|f fs IH]; intros d s base Ht Hr Hb.
  - destruct s; [|contradiction]. exists []. cbn. auto.
  - destruct (Ht f (or_introl eq_refl)) as (t & Hf). cbn [filter] in Hr. cbn [from_fields map].
    assert (Hb' : match option_map (@tl val) base with
                  | Some b => stores c fs (map own_default fs) b
                  | None => forall g, In g fs -> w_des g = true end).
    { destruct base as [[|b bs]|]; cbn in *; [contradiction|tauto|]. intros g Hg. apply Hb. auto. }
    assert (Hd : w_des f = false -> exists v, match base with Some (v :: _) => Some v | _ => None end = Some v /\
                   rep t (own_default f) = Some v).
    { intros Hw. destruct base as [[|b bs]|]; cbn in Hb; [contradiction| |].
      - destruct Hb as [(t' & E & V) _]. rewrite Hf in E. injection E as <-. eauto.
      - rewrite (Hb f (or_introl eq_refl)) in Hw. discriminate. }
    assert (Ht' : forall g, In g fs -> exists t, field_type c g = GOk t) by (intros; apply Ht; now right).
    unfold read_content at 1. unfold w_des in *. destruct (is_serde c f) eqn:Es; cbn [andb] in *.
    + destruct s as [|w s]; [contradiction|]. destruct Hr as [Hw Hr].
      destruct (IH d s _ Ht' Hr Hb') as (o & E & S). rewrite E.
      destruct (needs_deserialize c f).
      * destruct (Hw eq_refl) as (k & Hk & W).
        destruct (read_runs f t k w (serde_not_skipped f Es) Hf W) as (v & V & R).
        rewrite Hf, V. exists (v :: o). split; [reflexivity|]. cbn. split; [|exact S].
        exists t. rewrite Hk. auto.
      * destruct (Hd eq_refl) as (v & V & R). rewrite V. exists (v :: o). cbn. eauto 6.
    + destruct (IH d s _ Ht' Hr Hb') as (o & E & S). rewrite E.
      destruct (Hd eq_refl) as (v & V & R). rewrite V. exists (v :: o). cbn. eauto 6.
Qed.
Lemma default_object_runs : forall fs,
  (forall f, In f fs -> exists t, field_type c f = GOk t) ->
  (forall f t e, In f fs -> field_type c f = GOk t -> field_default c f = GOk e ->
     has_type (in_default true TUnit) e t = true) ->
  exists b, default_object bld alive dflt user c fs = Some b /\ stores c fs (map own_default fs) b.
Proof.
  induction fs as [|f fs IH]; intros Ht Hy.
  - exists []. cbn. auto.
  - destruct (Ht f (or_introl eq_refl)) as (t & Hf).
    destruct (default_runs f t Hf (fun e => Hy f t e (or_introl eq_refl) Hf)) as (v & V & R).
    destruct IH as (b & E & S); [intros; apply Ht; now right|intros g u e Hg; apply Hy; now right|].
    cbn [default_object]. rewrite V, E. exists (v :: b). cbn. eauto 6.
Qed.
Lemma from_ready : from_compiles c -> NoDup (map f_ident (all_fields c)) ->
  s_is_serde (c_args c) = true /\
  (needs_default c = false -> forall f, In f (all_fields c) -> w_des f = true).
Proof.
  intros (He & Hc & _) Hn. unfold from_shadow_emitted in He. apply andb_true_iff in He. destruct He as [He _].
  split; [exact He|]. rewrite serde_on_struct in He.
  intros Hd f Hf. unfold w_des. rewrite deserialized_field, He. cbn.
  destruct (proj1 (from_shadow_complete c Hn He) Hc) as [H|H]; [congruence|auto].
Qed.
Lemma deserialise_runs : forall d, from_compiles c -> NoDup (map f_ident (all_fields c)) ->
  defaults_make_sense named given c ->
  if forallb (fun f => accepts f d) (shadow_input c)
  then exists o, deserialise bld alive dflt user named given c d = RDone o /\
         stores c (all_fields c) (map (fun f => read_content f d) (all_fields c)) o
  else deserialise bld alive dflt user named given c d = RRefused.
Proof.
  intros d Hc Hn Hm. destruct (from_ready Hc Hn) as [Hs Hw]. destruct Hc as (He & _ & Ht & Hy).
  unfold deserialise. pose proof (read_shadow_runs (shadow_input c) d Hs Hm (incl_refl _)) as R.
  destruct (forallb _ _); [|now rewrite R]. destruct R as (s & E & T). rewrite E.
  unfold from_shadow. rewrite He. destruct (needs_default c).
  - destruct (default_object_runs (all_fields c) Ht (Hy eq_refl)) as (b & B & S). rewrite B.
    destruct (from_fields_run (all_fields c) d s (Some b) Ht T S) as (o & O & S'). rewrite O. eauto.
  - destruct (from_fields_run (all_fields c) d s None Ht T (Hw eq_refl)) as (o & O & S'). rewrite O. eauto.
Qed.
End Struct.
