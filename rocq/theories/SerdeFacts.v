(** The conversions of SerdeModel.v against SerdeSpec.v. *)
From Coq Require Import List Bool String Arith Lia.
From Verif Require Import ProxyTypes ArgsModel CtxModel RustAst CommonGen PlainGen SyncGen StructGen
  RustTyping CodegenSpec CodegenProofs CodegenValues CodegenStruct RustSem FieldSpec FieldRun SerdeSpec SerdeModel SerdeProofs.
Import ListNotations.
Open Scope string_scope.

Section Facts.
Variable bld : string -> nat -> outcome nat nat.
Variable alive : bool.
Variable dflt : nat.
Variable user : string -> nat.
Variable named : string -> option nat.
Variable given : field -> option nat.
Variable c : sctx.
Notation slot_of := (slot_of bld dflt user named given c).
Notation slots := (slots bld dflt user named given c).
Notation serialise := (serialise bld alive dflt user c).
Notation deserialise := (deserialise bld alive dflt user named given c).
Notation all_held := (all_held bld c).

Lemma written_is : forall f, s_is_serde (c_args c) = true -> w_ser c f = field_serializes f.
Proof. intros f H. unfold w_ser. rewrite serialized_field. rewrite serde_on_struct in H. now rewrite H. Qed.
Lemma read_is : forall f, s_is_serde (c_args c) = true -> w_des c f = field_deserializes f.
Proof. intros f H. unfold w_des. rewrite deserialized_field. rewrite serde_on_struct in H. now rewrite H. Qed.

(** An unset lazy field that is written and whose initialiser only makes a future. *)
Definition not_awaited (f : field) (k : option nat) : bool :=
  field_serializes f && is_lazy c f && waits c f && negb (is_some k).

Lemma document_as_spec : forall fs ks d, s_is_serde (c_args c) = true ->
  List.length ks = List.length fs ->
  (forall f k, In (f, k) (combine fs ks) -> not_awaited f k = false) ->
  spec_document (combine (map slot_of fs) ks) = Some d ->
  exists ks', all_held fs ks = Some ks' /\ doc_of c fs ks' = d /\
    all_builds c fs ks = spec_builds (combine (map slot_of fs) ks).
Proof.
  intros fs ks d Hs. revert ks d. induction fs as [|f fs IH]; intros [|k ks] d L Hw H; try discriminate L.
  - cbn in H. injection H as <-. exists []. auto.
  - cbn [map combine spec_document] in H.
    destruct (spec_document (combine (map slot_of fs) ks)) as [d'|] eqn:E; [|discriminate H].
    assert (L' : List.length ks = List.length fs) by (cbn in L; auto).
    destruct (IH ks d' L' (fun g j i => Hw g j (or_intror i)) E) as (ks' & A & D & B).
    pose proof (Hw f k (or_introl eq_refl)) as Hf. unfold not_awaited in Hf.
    cbn [SerdeProofs.all_held doc_of all_builds combine map]. unfold held_by. rewrite A.
    unfold spec_builds. cbn [filter fst]. cbn [slot_of SerdeModel.slot_of sl_written sl_lazy] in *.
    rewrite (written_is f Hs) in *. unfold SerdeModel.slot_of in H. cbn [sl_written sl_key] in H.
    destruct (field_serializes f); cbn [andb] in *.
    + unfold spec_written in H. cbn [sl_lazy sl_built] in H.
      destruct (is_lazy c f) eqn:El; cbn [andb] in *.
      * destruct k as [n|].
        -- cbn in H. injection H as <-. exists (Some n :: ks'). cbn [held g_held doc_of app g_builds map snd]. rewrite D, B.
           repeat split.
        -- destruct (bld (f_ident f) 0) as [n| |] eqn:Eb; try discriminate H. cbn in H. injection H as <-.
           assert (Ew : waits c f = false) by (destruct (waits c f); [discriminate Hf|reflexivity]).
           unfold held, g_held. rewrite Ew, Eb. exists (Some n :: ks').
           cbn [doc_of app g_builds map snd]. rewrite D, B. repeat split.
      * cbn in H. assert (H' : Some ((doc_key f, k) :: d') = Some d) by (destruct k; exact H).
        injection H' as <-. exists (k :: ks'). cbn [doc_of app]. rewrite D, B.
        repeat split.
    + injection H as <-. exists (k :: ks'). cbn [doc_of app]. rewrite D, B. repeat split.
Qed.
Lemma serialise_as_spec : forall ks o d, into_compiles c -> NoDup (map f_ident (all_fields c)) ->
  stores c (all_fields c) ks o ->
  (forall f k, In (f, k) (combine (all_fields c) ks) -> not_awaited f k = false) ->
  spec_document (combine slots ks) = Some d ->
  serialise o = WDone d (spec_builds (combine slots ks)).
Proof.
  intros ks o d Hc Hn H Hw Hd. rewrite (serialise_runs bld alive dflt user c ks o Hc Hn H).
  destruct (into_ready c Hc Hn) as [Hs _].
  destruct (document_as_spec (all_fields c) ks d Hs (stores_length c _ _ _ H) Hw Hd) as (ks' & A & D & B).
  rewrite A, D, B. reflexivity.
Qed.

(** When writing panics. *)
Definition blows_up (f : field) (k : option nat) : bool :=
  field_serializes f && is_lazy c f && negb (waits c f) && negb (is_some k) &&
  match bld (f_ident f) 0 with BOk _ => false | BErr _ => negb (is_fallible c f) | BPanic => true end.
Lemma held_panics : forall fs ks, s_is_serde (c_args c) = true -> List.length ks = List.length fs ->
  (all_held fs ks = None <-> exists f k, In (f, k) (combine fs ks) /\ blows_up f k = true).
Proof.
  intros fs ks Hs. revert ks. induction fs as [|f fs IH]; intros [|k ks] L; try discriminate L.
  - cbn. split; [discriminate|]. intros (f & k & [] & _).
  - assert (L' : List.length ks = List.length fs) by (cbn in L; auto). specialize (IH ks L').
    cbn [SerdeProofs.all_held combine].
    assert (Hb : held_by bld c f k = None <-> blows_up f k = true).
    { unfold held_by, blows_up, held, g_held. rewrite (written_is f Hs).
      destruct (field_serializes f), (is_lazy c f); cbn; try (split; discriminate).
      destruct k as [n|]; cbn; [rewrite andb_false_r; cbn; split; discriminate|].
      destruct (waits c f); cbn; [split; discriminate|].
      destruct (bld (f_ident f) 0) as [n|e|]; cbn; try destruct (is_fallible c f); cbn; split; congruence. }
    destruct (held_by bld c f k) as [k'|] eqn:E.
    + destruct (all_held fs ks) as [ks'|] eqn:A.
      * split; [discriminate|]. intros (g & j & [Hi|Hi] & Hx).
        -- injection Hi as <- <-. apply Hb in Hx. discriminate Hx.
        -- assert (Hq : Some ks' = None) by (apply IH; eauto). discriminate Hq.
      * split; [|reflexivity]. intros _. destruct (proj1 IH eq_refl) as (g & j & Hi & Hx).
        exists g, j. split; [now right|exact Hx].
    + split; [|reflexivity]. intros _. exists f, k. split; [now left|]. now apply Hb.
Qed.
Lemma serialise_panics : forall ks o, into_compiles c -> NoDup (map f_ident (all_fields c)) ->
  stores c (all_fields c) ks o ->
  (serialise o = WPanic <->
   exists f k, In (f, k) (combine (all_fields c) ks) /\ blows_up f k = true) /\
  serialise o <> WStuck.
Proof.
  intros ks o Hc Hn H. rewrite (serialise_runs bld alive dflt user c ks o Hc Hn H).
  destruct (into_ready c Hc Hn) as [Hs _].
  pose proof (held_panics (all_fields c) ks Hs (stores_length c _ _ _ H)) as P.
  destruct (all_held (all_fields c) ks); split; try discriminate; rewrite <- P; split; congruence.
Qed.

(** What is written for each field, whatever its builder does. *)
Definition really_written (f : field) (k : option nat) : option nat :=
  match k with
  | Some n => Some n
  | None => if is_lazy c f && negb (waits c f)
            then match bld (f_ident f) 0 with BOk n => Some n | _ => None end else None
  end.
Lemma held_exact : forall fs ks ks', s_is_serde (c_args c) = true -> List.length ks = List.length fs ->
  all_held fs ks = Some ks' ->
  doc_of c fs ks' = map (fun p => (doc_key (fst p), really_written (fst p) (snd p)))
    (filter (fun p => field_serializes (fst p)) (combine fs ks)) /\
  all_builds c fs ks = map (fun p => match snd p with Some _ => 0 | None => if waits c (fst p) then 0 else 1 end)
    (filter (fun p => field_serializes (fst p) && is_lazy c (fst p)) (combine fs ks)).
Proof.
  intros fs ks ks' Hs. revert ks ks'. induction fs as [|f fs IH]; intros [|k ks] ks' L H; try discriminate L.
  - cbn in H. injection H as <-. auto.
  - assert (L' : List.length ks = List.length fs) by (cbn in L; auto).
    cbn [SerdeProofs.all_held] in H. destruct (held_by bld c f k) as [k'|] eqn:E; [|discriminate H].
    destruct (all_held fs ks) as [r|] eqn:A; [|discriminate H]. injection H as <-.
    destruct (IH ks r L' A) as [D B]. cbn [doc_of all_builds combine filter fst snd].
    unfold held_by in E. rewrite (written_is f Hs) in *. rewrite D, B.
    destruct (field_serializes f); cbn [andb map fst snd] in *; [|split; reflexivity].
    assert (Hr : really_written f k = k').
    { unfold really_written. unfold held, g_held in E. destruct (is_lazy c f); cbn in *.
      - destruct k as [n|]; [congruence|]. destruct (waits c f); cbn in *; [congruence|].
        destruct (bld (f_ident f) 0); try congruence. destruct (is_fallible c f); congruence.
      - destruct k; congruence. }
    rewrite Hr. split; [reflexivity|]. destruct (is_lazy c f); reflexivity.
Qed.
Lemma serialise_exact : forall ks o, into_compiles c -> NoDup (map f_ident (all_fields c)) ->
  stores c (all_fields c) ks o ->
  (forall f k, In (f, k) (combine (all_fields c) ks) -> blows_up f k = false) ->
  serialise o =
  WDone (map (fun p => (doc_key (fst p), really_written (fst p) (snd p)))
           (filter (fun p => field_serializes (fst p)) (combine (all_fields c) ks)))
        (map (fun p => match snd p with Some _ => 0 | None => if waits c (fst p) then 0 else 1 end)
           (filter (fun p => field_serializes (fst p) && is_lazy c (fst p)) (combine (all_fields c) ks))).
Proof.
  intros ks o Hc Hn H Hb. rewrite (serialise_runs bld alive dflt user c ks o Hc Hn H).
  destruct (into_ready c Hc Hn) as [Hs _].
  pose proof (stores_length c _ _ _ H) as L.
  destruct (all_held (all_fields c) ks) as [ks'|] eqn:A.
  - destruct (held_exact _ _ _ Hs L A) as [D B]. now rewrite D, B.
  - apply (held_panics _ _ Hs L) in A. destruct A as (f & k & Hi & Hx). rewrite (Hb f k Hi) in Hx. discriminate.
Qed.

(** ** Reading *)
Definition turns_into_default (f : field) (d : document) : Prop :=
  field_deserializes f = true /\ is_sync c f = false /\ default_value f <> None /\
  spec_read (slot_of f) d = Some None.
Lemma taken_as_spec : forall f d, s_is_serde (c_args c) = true -> field_deserializes f = true ->
  taken_for dflt user named given c f d = spec_read (slot_of f) d.
Proof.
  intros f d Hs Hd. unfold taken_for, spec_read. cbn [SerdeModel.slot_of sl_read sl_key sl_maybe sl_missing].
  rewrite Hd, optional_is. reflexivity.
Qed.
Lemma content_as_spec : forall f d k, s_is_serde (c_args c) = true ->
  spec_read (slot_of f) d = Some k -> ~ turns_into_default f d ->
  defaults_make_sense named given c -> In f (all_fields c) ->
  read_content dflt user named given c f d = k.
Proof.
  intros f d k Hs H Ht Hm Hin. unfold read_content. rewrite (read_is f Hs).
  destruct (field_deserializes f) eqn:E.
  - rewrite (taken_as_spec f d Hs E), H. unfold kept_content. destruct k as [n|]; [reflexivity|].
    destruct (is_sync c f) eqn:Es; [reflexivity|]. unfold own_default.
    destruct (default_value f) as [x|] eqn:Ed.
    + destruct Ht. unfold turns_into_default. rewrite Ed. repeat split; auto; discriminate.
    + destruct (is_lazy c f || is_optional c f) eqn:Eo; [reflexivity|]. exfalso.
      unfold spec_read in H. cbn [SerdeModel.slot_of sl_read sl_key sl_maybe sl_missing] in H. rewrite E, Eo in H.
      destruct (look d (doc_key f)) as [[n|]|]; try discriminate H.
      unfold told in H. rewrite !told_arg_is, Eo in H. destruct Hm as [H1 H2].
      assert (Hi : In f (shadow_input c)).
      { apply filter_In. split; [exact Hin|]. rewrite serde_on_struct in Hs.
        rewrite is_serde_either, Hs, E. apply orb_true_r. }
      destruct (serde_default_arg (f_serde f)) as [dd|] eqn:E1.
      * destruct (d_value dd) as [t|] eqn:E2; [|discriminate H].
        destruct (d_is_str dd) eqn:E3; [|discriminate H]. apply (H1 f dd t Hi E1 E2 E3 Eo). congruence.
      * destruct (serde_default_arg (s_serde (c_args c))) as [dd|] eqn:E4; [|discriminate H].
        specialize (H2 dd eq_refl). destruct (d_value dd); [apply (H2 f Hi Eo); congruence|].
        unfold own_default in H. rewrite Ed, Eo in H. discriminate H.
  - unfold spec_read in H. cbn [SerdeModel.slot_of sl_read sl_default] in H. rewrite E in H. congruence.
Qed.
Lemma spec_reads_all : forall fs d,
  (spec_reads (map slot_of fs) d = None <-> exists f, In f fs /\ spec_read (slot_of f) d = None) /\
  (forall ks, spec_reads (map slot_of fs) d = Some ks ->
     Forall2 (fun f k => spec_read (slot_of f) d = Some k) fs ks).
Proof.
  intros fs d. induction fs as [|f fs [IH1 IH2]].
  - split; [split; [discriminate|intros (f & [] & _)]|]. intros ks H. injection H as <-. constructor.
  - cbn [map spec_reads]. destruct (spec_read (slot_of f) d) as [k|] eqn:E.
    + destruct (spec_reads (map slot_of fs) d) as [ks'|] eqn:R.
      * split; [split; [discriminate|]|].
        -- intros (g & [<-|Hi] & Hx); [congruence|]. assert (Hq : Some ks' = None) by (apply IH1; eauto). discriminate Hq.
        -- intros ks H. injection H as <-. constructor; auto.
      * split; [split; [|reflexivity]|discriminate]. intros _. destruct (proj1 IH1 eq_refl) as (g & Hi & Hx).
        exists g. split; [now right|exact Hx].
    + split; [split; [|reflexivity]|discriminate]. intros _. exists f. split; [now left|exact E].
Qed.
Lemma accepts_as_spec : forall d, s_is_serde (c_args c) = true ->
  (forallb (fun f => accepts dflt user named given c f d) (shadow_input c) = false <->
   spec_reads slots d = None).
Proof.
  intros d Hs. unfold SerdeModel.slots. rewrite (proj1 (spec_reads_all (all_fields c) d)).
  assert (Ha : forall f, accepts dflt user named given c f d = false <->
            spec_read (slot_of f) d = None).
  { intros f. unfold accepts. rewrite (read_is f Hs). destruct (field_deserializes f) eqn:E; cbn [negb orb].
    - rewrite (taken_as_spec f d Hs E). destruct (spec_read (slot_of f) d); cbn; split; congruence.
    - split; [discriminate|]. unfold spec_read. cbn [SerdeModel.slot_of sl_read]. rewrite E. discriminate. }
  split.
  - intros H. assert (Hx : exists f, In f (shadow_input c) /\ accepts dflt user named given c f d = false).
    { revert H. induction (shadow_input c) as [|f l IH]; cbn; [discriminate|]. intros H.
      destruct (accepts dflt user named given c f d) eqn:E.
      - destruct (IH H) as (g & Hi & Hx). exists g. auto.
      - exists f. auto. }
    destruct Hx as (f & Hi & Hx). exists f. split; [|now apply Ha]. apply filter_In in Hi. tauto.
  - intros (f & Hi & Hx). apply not_true_iff_false. intros F. rewrite forallb_forall in F.
    assert (Hd : field_deserializes f = true).
    { destruct (field_deserializes f) eqn:E; [reflexivity|]. unfold spec_read in Hx.
      cbn [SerdeModel.slot_of sl_read] in Hx. rewrite E in Hx. discriminate. }
    assert (Hs' := Hs). rewrite serde_on_struct in Hs'.
    assert (Hin : In f (shadow_input c)).
    { apply filter_In. split; [exact Hi|]. rewrite is_serde_either, Hs', Hd. apply orb_true_r. }
    specialize (F f Hin). apply Ha in Hx. congruence.
Qed.
Lemma contents_as_spec : forall fs d ks, s_is_serde (c_args c) = true -> defaults_make_sense named given c ->
  incl fs (all_fields c) -> (forall f, In f fs -> ~ turns_into_default f d) ->
  Forall2 (fun f k => spec_read (slot_of f) d = Some k) fs ks ->
  map (fun f => read_content dflt user named given c f d) fs = ks.
Proof.
  intros fs d ks Hs Hm Hi Ht H. induction H as [|f k fs ks E H IH]; [reflexivity|]. cbn. f_equal.
  - apply content_as_spec; auto; [apply Ht; now left|apply Hi; now left].
  - apply IH; [intros g Hg; apply Hi; now right|intros g Hg; apply Ht; now right].
Qed.
Lemma deserialise_as_spec : forall d, from_compiles c -> NoDup (map f_ident (all_fields c)) ->
  defaults_make_sense named given c ->
  (deserialise d = RRefused <-> spec_reads slots d = None) /\
  (forall ks, spec_reads slots d = Some ks -> (forall f, In f (all_fields c) -> ~ turns_into_default f d) ->
     exists o, deserialise d = RDone o /\ stores c (all_fields c) ks o).
Proof.
  intros d Hc Hn Hm. destruct (from_ready c Hc Hn) as [Hs _].
  pose proof (deserialise_runs bld alive dflt user named given c d Hc Hn Hm) as R.
  pose proof (accepts_as_spec d Hs) as A.
  destruct (forallb _ (shadow_input c)).
  - destruct R as (o & E & S). split.
    + rewrite E, <- A. split; discriminate.
    + intros ks H Ht. exists o. split; [exact E|].
      rewrite <- (contents_as_spec (all_fields c) d ks Hs Hm (incl_refl _) Ht
                    (proj2 (spec_reads_all (all_fields c) d) ks H)). exact S.
  - split; [split; [intros _; now apply A|intros _; exact R]|].
    intros ks H. rewrite (proj1 A eq_refl) in H. discriminate.
Qed.

(** The exact content after reading: a plain field read as empty takes its default. *)
Definition really_read (f : field) (k : option nat) : option nat :=
  match k with
  | None => if field_deserializes f && negb (is_sync c f) then own_default dflt user c f else None
  | Some n => Some n
  end.
Lemma deserialise_exact : forall d ks, from_compiles c -> NoDup (map f_ident (all_fields c)) ->
  defaults_make_sense named given c -> spec_reads slots d = Some ks ->
  exists o, deserialise d = RDone o /\
    stores c (all_fields c) (map (fun p => really_read (fst p) (snd p)) (combine (all_fields c) ks)) o.
Proof.
  intros d ks Hc Hn Hm H. destruct (from_ready c Hc Hn) as [Hs _].
  pose proof (deserialise_runs bld alive dflt user named given c d Hc Hn Hm) as R.
  pose proof (accepts_as_spec d Hs) as A.
  destruct (forallb _ (shadow_input c)); [|rewrite (proj1 A eq_refl) in H; discriminate].
  destruct R as (o & E & S). exists o. split; [exact E|].
  apply (proj2 (spec_reads_all (all_fields c) d)) in H.
  assert (Hq : map (fun f => read_content dflt user named given c f d) (all_fields c)
           = map (fun p => really_read (fst p) (snd p)) (combine (all_fields c) ks)).
  { clear - H Hs. induction H as [|f k fs ks E H IH]; [reflexivity|]. cbn. f_equal; [|exact IH].
    unfold read_content, really_read. rewrite (read_is f Hs). destruct (field_deserializes f) eqn:Ed.
    - rewrite (taken_as_spec f d Hs Ed), E. unfold kept_content. destruct k; [reflexivity|].
      destruct (is_sync c f); reflexivity.
    - unfold spec_read in E. cbn [SerdeModel.slot_of sl_read sl_default] in E. rewrite Ed in E. injection E as <-.
      destruct (own_default dflt user c f); reflexivity. }
  now rewrite <- Hq.
Qed.

(** ** There and back *)
Lemma look_doc : forall fs ks f k, NoDup (map doc_key fs) -> In (f, k) (combine fs ks) ->
  w_ser c f = true -> look (doc_of c fs ks) (doc_key f) = Some k.
Proof.
  induction fs as [|g fs IH]; intros [|j ks] f k Hn Hi Hw; try contradiction.
  cbn [map] in Hn. inversion Hn as [|x l Hx Hl]; subst. cbn [combine] in Hi. cbn [doc_of].
  destruct Hi as [Hi|Hi].
  - injection Hi as -> ->. rewrite Hw. cbn. now rewrite String.eqb_refl.
  - assert (Hne : String.eqb (doc_key f) (doc_key g) = false).
    { apply String.eqb_neq. intros E. apply Hx. rewrite <- E. apply in_map, (in_combine_l _ _ _ _ Hi). }
    destruct (w_ser c g); [cbn; rewrite Hne|]; apply IH; auto.
Qed.
(** Keys of the fields that serde sees are distinct. *)
Definition keys_distinct : Prop := NoDup (map doc_key (shadow_input c)).
Lemma look_doc_serde : forall fs ks f k, NoDup (map doc_key (filter (is_serde c) fs)) ->
  In (f, k) (combine fs ks) -> w_ser c f = true -> look (doc_of c fs ks) (doc_key f) = Some k.
Proof.
  induction fs as [|g fs IH]; intros [|j ks] f k Hn Hi Hw; try contradiction.
  cbn [combine] in Hi. cbn [doc_of filter] in *. unfold w_ser at 1.
  destruct (is_serde c g) eqn:Es; cbn [andb].
  - cbn [map] in Hn. inversion Hn as [|x l Hx Hl]; subst. destruct Hi as [Hi|Hi].
    + injection Hi as -> ->. unfold w_ser in Hw. rewrite Es in Hw. cbn in Hw. rewrite Hw. cbn.
      now rewrite String.eqb_refl.
    + assert (Hne : String.eqb (doc_key f) (doc_key g) = false).
      { apply String.eqb_neq. intros E. apply Hx. rewrite <- E. apply in_map, filter_In.
        split; [apply (in_combine_l _ _ _ _ Hi)|]. unfold w_ser in Hw. now destruct (is_serde c f). }
      destruct (needs_serialize c g); [cbn; rewrite Hne|]; apply IH; auto.
  - destruct Hi as [Hi|Hi]; [|apply IH; auto]. injection Hi as -> ->. unfold w_ser in Hw. rewrite Es in Hw. discriminate.
Qed.
Lemma spec_reads_of : forall fs d h, (forall f, In f fs -> spec_read (slot_of f) d = Some (h f)) ->
  spec_reads (map slot_of fs) d = Some (map h fs).
Proof.
  induction fs as [|f fs IH]; intros d h H; [reflexivity|]. cbn.
  rewrite (H f (or_introl eq_refl)), (IH d h (fun g i => H g (or_intror i))). reflexivity.
Qed.
Lemma combine_reads : forall fs ks d, List.length ks = List.length fs ->
  (forall f k, In (f, k) (combine fs ks) ->
     spec_read (slot_of f) d = Some (if w_ser c f && field_deserializes f then k else own_default dflt user c f)) ->
  spec_reads (map slot_of fs) d =
  Some (map (fun p => if w_ser c (fst p) && field_deserializes (fst p) then snd p else own_default dflt user c (fst p))
          (combine fs ks)).
Proof.
  induction fs as [|f fs IH]; intros [|k ks] d L H; try discriminate L; [reflexivity|].
  cbn [map combine spec_reads fst snd]. rewrite (H f k (or_introl eq_refl)).
  rewrite (IH ks d); [reflexivity|cbn in L; auto|]. intros g j i. apply H. now right.
Qed.
Lemma stores_rep : forall fs ks o f k, stores c fs ks o -> In (f, k) (combine fs ks) ->
  exists t v, field_type c f = GOk t /\ rep t k = Some v.
Proof.
  induction fs as [|g fs IH]; intros [|j ks] [|v o] f k H Hi; try contradiction.
  destruct H as [(t & Ht & Hv) H]. destruct Hi as [Hi|Hi]; [injection Hi as -> ->; eauto|eauto].
Qed.
Lemma never_empty : forall f t k v, f_skip f = false -> field_type c f = GOk t -> rep t k = Some v ->
  is_lazy c f || is_optional c f = false -> k <> None.
Proof.
  intros f t k v Hs Ht Hv Ho E. subst k. apply orb_false_iff in Ho. destruct Ho as [Hl Ho].
  unfold field_type in Ht. destruct (is_sync c f).
  - unfold sync_type in Ht. destruct (wrapper_type_ok (cfg_of c f)); try discriminate Ht.
    cbn in Ht. unfold f_is_skipped in Ht. rewrite Hs, Hl in Ht. unfold maybe_locked, maybe_optional in Ht. cbn in Ht.
    rewrite Ho in Ht. injection Ht as <-. destruct (needs_lock c f); discriminate Hv.
  - injection Ht as <-. unfold plain_type in Hv. cbn in Hv. rewrite Hl, Ho in Hv.
    destruct (is_inner_mut c f); discriminate Hv.
Qed.
Lemma combine_map_snd : forall (h : field -> option nat -> option nat) fs ks,
  List.length ks = List.length fs ->
  combine fs (map (fun p => h (fst p) (snd p)) (combine fs ks))
  = map (fun p => (fst p, h (fst p) (snd p))) (combine fs ks).
Proof.
  intros h. induction fs as [|f fs IH]; intros [|k ks] L; try discriminate L; [reflexivity|].
  cbn. f_equal. apply IH. auto.
Qed.
Lemma all_held_length : forall fs ks ks', List.length ks = List.length fs -> all_held fs ks = Some ks' ->
  List.length ks' = List.length fs.
Proof.
  induction fs as [|f fs IH]; intros [|k ks] ks' L H; try discriminate L.
  - cbn in H. now injection H as <-.
  - cbn [SerdeProofs.all_held] in H. destruct (held_by bld c f k); [|discriminate H].
    destruct (all_held fs ks) as [r|] eqn:E; [|discriminate H]. injection H as <-. cbn. f_equal.
    apply (IH ks); auto.
Qed.
Lemma held_in : forall fs ks ks' f k', all_held fs ks = Some ks' -> In (f, k') (combine fs ks') ->
  exists k, In (f, k) (combine fs ks) /\ held_by bld c f k = Some k'.
Proof.
  induction fs as [|g fs IH]; intros [|k ks] ks' f k' H Hi.
  - contradiction.
  - contradiction.
  - cbn in H. injection H as <-. contradiction.
  - cbn [SerdeProofs.all_held] in H. destruct (held_by bld c g k) as [j|] eqn:E; [|discriminate H].
    destruct (all_held fs ks) as [r|] eqn:A; [|discriminate H]. injection H as <-.
    destruct Hi as [Hi|Hi].
    + injection Hi as -> ->. exists k. split; [now left|exact E].
    + destruct (IH ks r f k' A Hi) as (k0 & H1 & H2). exists k0. split; [now right|exact H2].
Qed.
(** What each field holds afterwards. *)
Definition really_back (f : field) (k : option nat) : option nat :=
  if field_serializes f && field_deserializes f
  then match really_written f k with
       | Some n => Some n
       | None => if is_sync c f then None else own_default dflt user c f
       end
  else own_default dflt user c f.
Lemma round_trip_exact : forall ks o d n, into_compiles c -> from_compiles c ->
  NoDup (map f_ident (all_fields c)) -> defaults_make_sense named given c -> keys_distinct ->
  stores c (all_fields c) ks o -> serialise o = WDone d n ->
  exists o', deserialise d = RDone o' /\
    stores c (all_fields c) (map (fun p => really_back (fst p) (snd p)) (combine (all_fields c) ks)) o'.
Proof.
  intros ks o d n Hi Hf Hn Hm Hk H He. destruct (into_ready c Hi Hn) as [Hs Hw].
  rewrite (serialise_runs bld alive dflt user c ks o Hi Hn H) in He.
  pose proof (stores_length c _ _ _ H) as L.
  destruct (all_held (all_fields c) ks) as [ks'|] eqn:A; [|discriminate He]. injection He as <- _.
  pose proof (all_held_length _ _ _ L A) as L'.
  assert (R : spec_reads slots (doc_of c (all_fields c) ks') =
    Some (map (fun p => if w_ser c (fst p) && field_deserializes (fst p) then snd p else own_default dflt user c (fst p))
            (combine (all_fields c) ks'))).
  { apply combine_reads; [exact L'|]. intros f k' Hin. unfold spec_read.
    cbn [SerdeModel.slot_of sl_read sl_key sl_maybe sl_missing sl_default].
    destruct (field_deserializes f) eqn:Ed; [|now rewrite andb_false_r].
    assert (Hfin : In f (all_fields c)) by apply (in_combine_l _ _ _ _ Hin).
    assert (Es : is_serde c f = true).
    { assert (Hs' := Hs). rewrite serde_on_struct in Hs'. rewrite is_serde_either, Hs', Ed. apply orb_true_r. }
    assert (Ew : w_ser c f = true) by (unfold w_ser; rewrite Es; cbn; now apply Hw).
    rewrite (look_doc_serde (all_fields c) ks' f k' Hk Hin Ew), Ew. cbn [andb].
    destruct k' as [m|]; [reflexivity|].
    destruct (is_lazy c f || is_optional c f) eqn:Eo; [reflexivity|]. exfalso.
    destruct (held_in _ _ _ _ _ A Hin) as (k & Hin' & Hh).
    assert (Hkn : k = None).
    { unfold held_by in Hh. apply orb_false_iff in Eo. destruct Eo as [El _]. rewrite El, andb_false_r in Hh. congruence. }
    destruct (stores_rep _ _ _ _ _ H Hin') as (t & v & Ht & Hv).
    exact (never_empty f t k v (serde_not_skipped c f Es) Ht Hv Eo Hkn). }
  destruct (deserialise_exact _ _ Hf Hn Hm R) as (o' & E & S). exists o'. split; [exact E|].
  assert (Hq : map (fun p => really_back (fst p) (snd p)) (combine (all_fields c) ks) =
    map (fun p => really_read (fst p) (snd p))
      (combine (all_fields c) (map (fun p => if w_ser c (fst p) && field_deserializes (fst p) then snd p
         else own_default dflt user c (fst p)) (combine (all_fields c) ks')))); [|now rewrite Hq].
  rewrite (combine_map_snd (fun f k => if w_ser c f && field_deserializes f then k else own_default dflt user c f)) by exact L'.
  rewrite map_map. cbn [fst snd]. clear - A L L' Hs. revert ks ks' L L' A.
  induction (all_fields c) as [|f fs IH]; intros [|k ks] [|k' ks'] L L' A; try discriminate L; try discriminate L'; [reflexivity|].
  cbn [SerdeProofs.all_held] in A. destruct (held_by bld c f k) as [j|] eqn:E; [|discriminate A].
  destruct (all_held fs ks) as [r|] eqn:A'; [|discriminate A]. injection A as -> ->.
  cbn [combine map fst snd]. f_equal; [|apply IH; auto].
  unfold really_back, really_read. rewrite (written_is f Hs). unfold held_by in E. rewrite (written_is f Hs) in E.
  destruct (field_serializes f) eqn:Ews; cbn [andb] in *.
  - destruct (field_deserializes f) eqn:Ed; cbn [andb].
    + assert (Hr : really_written f k = k').
      { unfold really_written. unfold held, g_held in E. destruct (is_lazy c f); cbn in *.
        - destruct k as [m|]; [congruence|]. destruct (waits c f); cbn in *; [congruence|].
          destruct (bld (f_ident f) 0); try congruence. destruct (is_fallible c f); congruence.
        - destruct k; congruence. }
      rewrite Hr. destruct k'; [reflexivity|]. destruct (is_sync c f); reflexivity.
    + destruct (own_default dflt user c f); reflexivity.
  - destruct (own_default dflt user c f) eqn:Eo; [reflexivity|]. destruct (field_deserializes f && negb (is_sync c f)); reflexivity.
Qed.
(** No field is among the three that do not come back. *)
Definition comes_back (f : field) (k : option nat) : Prop :=
  field_serializes f = true -> field_deserializes f = true -> k = None ->
  if is_lazy c f then waits c f = false /\ exists n, bld (f_ident f) 0 = BOk n
  else is_sync c f = true \/ default_value f = None.
Lemma back_as_spec : forall f k, (k = None -> is_lazy c f || is_optional c f = true \/ f_skip f = true) ->
  comes_back f k -> really_back f k = spec_back (slot_of f) k.
Proof.
  intros f k Hk H. unfold really_back, spec_back, comes_back in *.
  cbn [SerdeModel.slot_of sl_written sl_read sl_default sl_lazy sl_built].
  destruct (field_serializes f) eqn:E; [|reflexivity]. destruct (field_deserializes f); [|reflexivity]. cbn [andb].
  destruct k as [n|]; [reflexivity|]. specialize (H eq_refl eq_refl eq_refl).
  unfold really_written. destruct (is_lazy c f) eqn:El.
  - destruct H as (Hw & n & Hb). rewrite Hw, Hb. reflexivity.
  - cbn [andb]. assert (Ho : is_optional c f = true).
    { destruct (Hk eq_refl) as [Ho|Ho]; [exact Ho|]. unfold field_serializes, field_serde in E. rewrite Ho in E. discriminate. }
    destruct H as [H|H].
    + rewrite H. destruct (bld (f_ident f) 0); reflexivity.
    + unfold own_default. rewrite H, El, Ho. destruct (is_sync c f), (bld (f_ident f) 0); reflexivity.
Qed.
Lemma round_trip : forall ks o, into_compiles c -> from_compiles c ->
  NoDup (map f_ident (all_fields c)) -> defaults_make_sense named given c -> keys_distinct ->
  stores c (all_fields c) ks o ->
  (forall f k, In (f, k) (combine (all_fields c) ks) -> blows_up f k = false /\ comes_back f k) ->
  exists d n o', serialise o = WDone d n /\ deserialise d = RDone o' /\
    stores c (all_fields c) (map (fun p => spec_back (fst p) (snd p)) (combine slots ks)) o'.
Proof.
  intros ks o Hi Hf Hn Hm Hk H Hc.
  pose proof (serialise_exact ks o Hi Hn H (fun f k i => proj1 (Hc f k i))) as E.
  eexists. eexists.
  destruct (round_trip_exact ks o _ _ Hi Hf Hn Hm Hk H E) as (o' & D & S).
  exists o'. split; [exact E|]. split; [exact D|].
  assert (Hq : map (fun p => really_back (fst p) (snd p)) (combine (all_fields c) ks)
             = map (fun p => spec_back (fst p) (snd p)) (combine slots ks)); [|now rewrite <- Hq].
  assert (Hx : forall f k, In (f, k) (combine (all_fields c) ks) -> really_back f k = spec_back (slot_of f) k).
  { intros f k i. apply back_as_spec; [|apply Hc, i]. intros ->.
    destruct (stores_rep _ _ _ _ _ H i) as (t & v & Ht & Hv).
    destruct (f_skip f) eqn:Hsk; [now right|]. left.
    destruct (is_lazy c f || is_optional c f) eqn:Eo; [reflexivity|].
    destruct (never_empty f t None v Hsk Ht Hv Eo eq_refl). }
  clear - Hx. unfold SerdeModel.slots. revert ks Hx. induction (all_fields c) as [|f fs IH]; intros [|k ks] Hx; try reflexivity.
  cbn [combine map fst snd]. f_equal; [apply Hx; now left|]. apply IH. intros g j i. apply Hx. now right.
Qed.

(** ** Keys *)
Definition name_for_serde (f : field) : option string :=
  match f_serde f with
  | Some w => match se_shadow_name w with Some n => strarg_value n | None => None end
  | None => None
  end.
Lemma doc_keys : forall fs ks, s_is_serde (c_args c) = true -> List.length ks = List.length fs ->
  map fst (doc_of c fs ks) = map doc_key (filter field_serializes fs).
Proof.
  intros fs ks Hs. revert ks. induction fs as [|f fs IH]; intros [|k ks] L; try discriminate L; [reflexivity|].
  cbn [doc_of filter]. rewrite (written_is f Hs). destruct (field_serializes f); cbn [map fst]; rewrite IH by (cbn in L; auto); reflexivity.
Qed.
Lemma document_keys : forall ks o d n, into_compiles c -> NoDup (map f_ident (all_fields c)) ->
  stores c (all_fields c) ks o ->
  (forall f, In f (all_fields c) -> field_serializes f = true -> name_for_serde f = None) ->
  serialise o = WDone d n ->
  map fst d = map (fun f => spec_key (name_for_serde f) (f_base_name_of f) (f_ident f))
                (filter field_serializes (all_fields c)).
Proof.
  intros ks o d n Hi Hn H Hx He. destruct (into_ready c Hi Hn) as [Hs _].
  rewrite (serialise_runs bld alive dflt user c ks o Hi Hn H) in He.
  pose proof (stores_length c _ _ _ H) as L.
  destruct (all_held (all_fields c) ks) as [ks'|] eqn:A; [|discriminate He]. injection He as <- _.
  rewrite (doc_keys _ _ Hs (all_held_length _ _ _ L A)). apply map_ext_in. intros f Hf.
  apply filter_In in Hf. rewrite (Hx f (proj1 Hf) (proj2 Hf)). reflexivity.
Qed.
End Facts.
