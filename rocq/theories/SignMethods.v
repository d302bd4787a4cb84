(** Proofs for C79: visibility and signatures. *)
From Coq Require Import List Bool String Ascii.
From Verif Require Import ArgsModel CtxModel ArgsSpec TokenSpec ParseInput ParseModel ParseSpec ParseFacts ParseForms ParseDefault GrammarSpec GrammarProofs
  RustAst CommonGen PlainGen SyncGen StructGen CodegenSpec CodegenStruct WrittenSpec WrittenProofs WrittenNames SignSpec SignProofs.
Import ListNotations.
Open Scope string_scope.
Open Scope list_scope.

Definition tells {A} (P : A -> Prop) (o : option A) : Prop := forall v, o = Some v <-> P v.
Lemma told_first {A} (Ps : list (A -> Prop)) os d : Forall2 tells Ps os ->
  forall v, first_told Ps (eq d) v <-> v = unwrap_or (first_some os) d.
Proof.
  induction 1 as [|P o Ps os T F IH]; intros v; simpl; [split; auto|].
  unfold tells in T. destruct o as [u|]; simpl.
  - split.
    + intros [W|[N _]]; [apply T in W; congruence|]. exfalso. apply (N u), T. reflexivity.
    + intros ->. left. apply T. reflexivity.
  - rewrite <- IH. split.
    + intros [W|[_ W]]; [apply T in W; discriminate|exact W].
    + intros W. right. split; [|exact W]. intros u Y. apply T in Y. discriminate.
Qed.
Lemma tells_inside {A} n cs bs (P : list (list tok) -> A -> Prop) o : opened n cs bs -> (forall v, ~ P [] v) -> tells (P bs) o ->
  tells (fun v => exists b, inside n cs b /\ P b v) o.
Proof.
  intros [U I] N T v. rewrite (T v). split.
  - intros W. destruct I as [I| ->]; [exists bs; auto|]. contradiction (N v W).
  - intros (b & J & W). rewrite (U _ J) in W. exact W.
Qed.
Lemma shown_nil v : ~ shown [] v.
Proof. intros W. inversion W as [(c & r & [] & _)|c r v' _ []]. Qed.

(** The helper of a kind, from what is stored. *)
Lemma helper_within cs seen n (f : smeta -> option helper) (o : option helper) : stored cs seen -> segment_ok n = true ->
  carries f helper_parts -> opt_arg seen n f = Some o -> tells (shown_in n cs) (option_map pub_tok (CtxModel.obind o helper_public_mode)).
Proof.
  intros ST S C O. destruct (carried _ _ _ _ _ _ ST S C O) as (bs & sn & OP & SB & H).
  apply (tells_inside n cs bs shown _ OP shown_nil). intros v. destruct o as [h|].
  - destruct H as [H1 H2]. apply (shown_mode bs sn _ _ SB H1 H2).
  - subst sn. apply (shown_mode bs [] None None SB); reflexivity.
Qed.
Lemma carries_base {A} (f : smeta -> option A) (base : A -> helper) P : carries f P -> (forall sn a, P sn a -> helper_parts sn (base a)) ->
  carries (fun m => option_map base (f m)) helper_parts.
Proof.
  intros C H m h E. destruct (f m) as [a|] eqn:X; [|discriminate]. injection E as <-. destruct (C m a X) as (bs & sn & V & S & Y).
  exists bs, sn. auto.
Qed.
Lemma opt_map {A B} seen n (f : smeta -> option A) (g : A -> B) o : opt_arg seen n f = Some o ->
  opt_arg seen n (fun m => option_map g (f m)) = Some (option_map g o).
Proof.
  unfold opt_arg. destruct (assoc n seen) as [m|]; [|intros E; injection E as <-; reflexivity].
  destruct (f m); [|discriminate]. intros E. injection E as <-. reflexivity.
Qed.
Lemma getter_base : carries (fun m => option_map a_base (accessor_arg m)) helper_parts.
Proof. apply (carries_base _ _ _ getter_carries). intros sn a H. apply H. Qed.
Lemma setter_base : carries (fun m => option_map st_base (setter_arg m)) helper_parts.
Proof. apply (carries_base _ _ _ setter_carries). intros sn a H. apply H. Qed.
Lemma builder_base b : carries (fun m => option_map b_base (builder_arg b m)) helper_parts.
Proof. apply (carries_base _ _ _ (builder_carries b)). intros sn a H. apply H. Qed.

Ltac find_helper := first
  [ match goal with H : opt_arg ?s ?n helper_arg = Some ?o |- tells (shown_in ?n _) (option_map _ (CtxModel.obind ?o _)) =>
      apply (helper_within _ s n helper_arg o); [eassumption|reflexivity|exact helper_carries|exact H] end
  | match goal with H : opt_arg ?s ?n accessor_arg = Some ?o |- tells (shown_in ?n _) _ =>
      apply (helper_within _ s n _ _ ltac:(eassumption) eq_refl getter_base (opt_map _ _ _ _ _ H)) end
  | match goal with H : opt_arg ?s ?n setter_arg = Some ?o |- tells (shown_in ?n _) _ =>
      apply (helper_within _ s n _ _ ltac:(eassumption) eq_refl setter_base (opt_map _ _ _ _ _ H)) end
  | match goal with H : opt_arg ?s ?n (builder_arg ?b) = Some ?o |- tells (shown_in ?n _) _ =>
      apply (helper_within _ s n _ _ ltac:(eassumption) eq_refl (builder_base b) (opt_map _ _ _ _ _ H)) end ].
Lemma struct_helper_shown ft ss s k : struct_as ft ss s ->
  tells (shown_in (helper_word k) ss) (option_map pub_tok (CtxModel.obind (s_get_helper s k) helper_public_mode)).
Proof.
  intros H. destruct (struct_stored _ _ _ H) as (seen & ST & S). pose proof (sargs_of_inv _ _ S) as Q.
  repeat match goal with X : _ /\ _ |- _ => destruct X end.
  destruct k; cbn [helper_word s_get_helper]; unfold acc_base, set_base, bld_base; find_helper.
Qed.
Lemma struct_shown ft ss s : struct_as ft ss s -> tells (shown ss) (option_map pub_tok (s_public_mode s)).
Proof.
  intros H. destruct (struct_stored _ _ _ H) as (seen & ST & S). pose proof (sargs_of_inv _ _ S) as Q.
  repeat match goal with X : _ /\ _ |- _ => destruct X end. intros v. eapply shown_mode; eassumption.
Qed.
Section Field.
  Variables (ft : features) (x : source) (f : field).
  Hypothesis R : read_as ft x f.
  Lemma field_helper_shown k : (touched k = true -> ~ bare x) ->
    tells (shown_in (helper_word k) (so_args x)) (option_map pub_tok (CtxModel.obind (f_get_helper f k) helper_public_mode)).
  Proof.
    intros T. destruct (field_stored _ _ _ R) as (seen & f0 & ST & (i & v & t & a & S) & G & _). rewrite (G k T). clear G T.
    pose proof (field_of_inv _ _ _ _ _ _ S) as Q. repeat match goal with X : _ /\ _ |- _ => destruct X end.
    destruct k; cbn [helper_word f_get_helper]; unfold acc_base, set_base, bld_base; find_helper.
  Qed.
  Lemma field_shown : tells (shown (so_args x)) (option_map pub_tok (f_public_mode f)).
  Proof.
    destruct (field_stored _ _ _ R) as (seen & f0 & ST & (i & v & t & a & S) & G).
    pose proof (field_of_inv _ _ _ _ _ _ S) as Q. repeat match goal with X : _ /\ _ |- _ => destruct X end.
    unfold f_public_mode. repeat match goal with E : ?p f = ?p f0 |- _ => rewrite E; clear E end.
    intros u. eapply shown_mode; eassumption.
  Qed.
End Field.
Lemma map_or_else {A B} (g : A -> B) (o p : option A) : option_map g (or_else o p) = or_else (option_map g o) (option_map g p).
Proof. destruct o; reflexivity. Qed.
Section Context.
  Variables (ft : features) (c : sctx) (ss : list (list tok)).
  Hypothesis HS : struct_as ft ss (c_args c).
  Section OneField.
  Variables (x : source) (f : field).
  Hypothesis R : read_as ft x f.
  Lemma w_vis k : (touched k = true -> ~ bare x) -> forall v, visible ss (c_vis c) x k v <-> v = vis_tok c f k.
  Proof.
    intros T v. unfold visible.
    rewrite (told_first _ [option_map pub_tok (CtxModel.obind (f_get_helper f k) helper_public_mode); option_map pub_tok (f_public_mode f);
      option_map pub_tok (CtxModel.obind (s_get_helper (c_args c) k) helper_public_mode); option_map pub_tok (s_public_mode (c_args c))]).
    - unfold vis_tok. match goal with |- v = ?a <-> v = ?b => replace b with a; [reflexivity|] end.
      destruct (CtxModel.obind (f_get_helper f k) helper_public_mode), (f_public_mode f),
        (CtxModel.obind (s_get_helper (c_args c) k) helper_public_mode), (s_public_mode (c_args c)); reflexivity.
    - constructor; [apply (field_helper_shown ft x f R k T)|]. constructor; [apply (field_shown ft x f R)|].
      constructor; [apply (struct_helper_shown ft ss _ k HS)|]. constructor; [apply (struct_shown ft ss _ HS)|constructor].
  Qed.
  Lemma not_bare k : touched k = true -> asks ss x (helper_word k) False -> ~ bare x.
  Proof.
    intros T A B. destruct A as [[_ [_ K]]|[K _]]; unfold field_word in K; cbn [fst snd] in K.
    - apply K. split; [exact B|]. destruct k; try discriminate; simpl; tauto.
    - apply K. right. split; [exact B|]. destruct k; try discriminate; simpl; tauto.
  Qed.
  Theorem w_method_vis all ms m q : Forall2 (read_as ft) all (c_input_fields c) -> field_methods c f = GOk ms -> In m ms ->
    told q (in_sync ss all x) -> forall v, visible ss (c_vis c) x (ruled_by q (m_kind m)) v <-> v = m_vis m.
  Proof.
    intros HF M I T. destruct (field_decls c f ms m M I) as (_ & V & _ & W).
    apply (told_bool _ _ (w_sync ft c ss all HS HF x f R)) in T.
    rewrite V. simpl g_vis. replace (vis_kind (is_sync c f) (m_kind m)) with (ruled_by q (m_kind m)) by (subst q; destruct (m_kind m); reflexivity).
    apply w_vis. intros TK. apply (not_bare (ruled_by q (m_kind m)) TK).
    destruct (m_kind m); simpl in W, TK |- *; try discriminate; try (destruct q; discriminate).
    - apply (w_clearer ft c ss HS x f R). exact W.
    - apply (w_predicate ft c ss HS x f R). exact W.
  Qed.
  End OneField.
End Context.

(** ** How the value is handed out *)
Definition mode_word (m : accmode) : string :=
  match m with AMCopy => "copy" | AMClone => "clone" | AMAsRef => "as_ref" | AMNone => "" end.
Lemma flag_given cs seen n b : stored cs seen -> segment_ok n = true -> flag seen n = Some b -> (b = true <-> given_in n cs).
Proof. intros ST S F. rewrite (stored_given _ _ _ ST S). apply given_flag, F. Qed.
Lemma getter_told cs seen o : stored cs seen -> opt_arg seen "get" accessor_arg = Some o ->
  tells (by_getter cs) (option_map mode_word (CtxModel.obind o accessor_arg_mode)).
Proof.
  intros ST O. destruct (carried _ _ _ _ _ _ ST (eq_refl : segment_ok "get" = true) getter_carries O) as (bs & sn & OP & SB & H).
  assert (K : tells (fun w => exists b, inside "get" cs b /\ (In w ["clone"; "copy"; "as_ref"] /\ given_in w b))
                (option_map mode_word (CtxModel.obind o accessor_arg_mode))).
  { apply (tells_inside "get" cs bs (fun b w => In w ["clone"; "copy"; "as_ref"] /\ given_in w b)); [exact OP|intros w [_ (c & [] & _)]|].
    destruct o as [a|].
    - destruct H as (_ & H1 & H2 & H3 & E1 & E2 & E3).
      pose proof (flag_given _ _ "clone" _ SB eq_refl H1) as G1. pose proof (flag_given _ _ "copy" _ SB eq_refl H2) as G2.
      pose proof (flag_given _ _ "as_ref" _ SB eq_refl H3) as G3.
      intros w. simpl. unfold accessor_arg_mode. destruct (a_clone a), (a_copy a), (a_as_ref a); try discriminate; simpl; split;
        try (intros Q; injection Q as <-); try discriminate;
        try (split; [tauto|apply G1 || apply G2 || apply G3; reflexivity]);
        intros [[<-|[<-|[<-|[]]]] G]; try reflexivity; exfalso; first [apply G1 in G|apply G2 in G|apply G3 in G]; discriminate.
    - subst sn. intros w. simpl. split; [discriminate|]. intros [_ (c & I & r & X)].
      destruct (proj2 SB) with (n := w) (c := c) (r := r) as (m & E & _); try assumption; [|discriminate].
      exfalso. destruct (proj2 OP) as [(c1 & d1 & t1 & I1 & Y1 & _)|E1]; [|subst bs; destruct I].
      unfold opt_arg in O. destruct (proj2 ST "get" c1 _ eq_refl I1 Y1) as (m & E & _). rewrite E in O. destruct (accessor_arg m); discriminate. }
  intros w. rewrite (K w). unfold by_getter. split.
  - intros (b & J & A & B). split; [exact A|]. exists b. auto.
  - intros (A & b & J & B). exists b. auto.
Qed.
Definition copy_of (cl cp : option bool) : option bool := if unwrap_or cl false then Some false else cp.
Lemma word_told cs seen cl cp : stored cs seen -> opt_arg seen "clone" bool_arg = Some cl -> opt_arg seen "copy" bool_arg = Some cp ->
  tells (by_word cs) (option_map mode_word (option_map copy_or_clone (copy_of cl cp))) /\
  heeds (on_in "clone" cs \/ given_in "copy" cs, on_in "copy" cs /\ ~ on_in "clone" cs) (copy_of cl cp) /\
  heeds (on_in "copy" cs \/ given_in "clone" cs, on_in "clone" cs /\ ~ on_in "copy" cs) (copy_of cp cl).
Proof.
  intros ST C1 C2. pose proof (stored_word _ _ "clone" _ ST eq_refl C1) as H1. pose proof (stored_word _ _ "copy" _ ST eq_refl C2) as H2.
  pose proof (on_given "clone" cs) as O1. pose proof (on_given "copy" cs) as O2.
  unfold heeds, word, copy_of in *. cbn [fst snd] in *. split; [|split].
  - intros w. split.
    + destruct cl as [[]|], cp as [[]|]; simpl; intros E; try discriminate; injection E as <-;
        first [apply word_clone; tauto|apply word_copy; tauto|apply word_no_copy; tauto].
    + intros W. destruct W as [A|A B|A B D], cl as [[]|], cp as [[]|]; simpl; try reflexivity; exfalso; tauto.
  - destruct cl as [[]|], cp as [[]|]; simpl; tauto.
  - destruct cl as [[]|], cp as [[]|]; simpl; tauto.
Qed.
Lemma wants_told cs o w m : tells (by_getter cs) (option_map mode_word o) -> (forall a, o = Some a -> a <> AMNone) -> w = mode_word m -> m <> AMNone ->
  heeds ((exists u, by_getter cs u), by_getter cs w) (option_map (accmode_eqb m) o).
Proof.
  intros T NN -> N. destruct o as [a|]; simpl.
  - assert (G : by_getter cs (mode_word a)) by (apply T; reflexivity).
    assert (E : accmode_eqb m a = true <-> by_getter cs (mode_word m)).
    { rewrite <- (T (mode_word m)). specialize (NN a eq_refl). simpl. destruct m, a; simpl; intuition (try congruence; try discriminate). }
    destruct (accmode_eqb m a); simpl; (split; [exists (mode_word a); exact G|]); intuition discriminate.
  - intros (u & G). apply T in G. discriminate.
Qed.
Lemma mode_some (o : option accessor) a : CtxModel.obind o accessor_arg_mode = Some a -> a <> AMNone.
Proof. destruct o as [x|]; [|discriminate]. simpl. unfold accessor_arg_mode. destruct (a_clone x), (a_copy x), (a_as_ref x); intros E; injection E as <- || discriminate; discriminate. Qed.
Lemma affirmed m b : meta_ok m -> bool_from_meta m = Some b -> (b = true <-> affirms (rest m)).
Proof.
  intros M H. unfold affirms. destruct m as [p|p d ts|p v]; simpl in *; [|discriminate|].
  - injection H as <-. tauto.
  - destruct (parse_lit v) as [s|] eqn:P; [|discriminate]. cbn [obind] in H.
    assert (V : v = [TIdent s] \/ v = [TLit s] \/ (lit_bool s = None /\ lit_str s = None)).
    { unfold parse_lit in P. destruct v as [|[y|y|y|d g] [|[z|z|z|d' g'] [|u v]]]; try discriminate.
      - destruct (lit_bool y); [|discriminate]. injection P as <-. auto.
      - destruct (String.eqb_spec y "-"); [|discriminate]. destruct (is_number z); [|discriminate]. injection P as <-. subst y.
        right. right. split; reflexivity.
      - injection P as <-. auto. }
    assert (U : affirms (TPunct "=" :: v) -> v = [TIdent "true"] \/ v = [TLit "true"] \/ string_for "true" v).
    { intros [E|(v' & E & W)]; [discriminate|]. injection E as <-. exact W. }
    destruct (lit_bool s) as [b'|] eqn:L.
    + injection H as ->. destruct V as [-> |[-> |[V _]]]; [| |discriminate].
      * unfold lit_bool in L. destruct (String.eqb_spec s "true") as [->|N].
        -- injection L as <-. split; [intros _; right; eexists; split; [reflexivity|auto]|reflexivity].
        -- destruct (String.eqb s "false"); [|discriminate]. injection L as <-. split; [discriminate|]. intros W.
           destruct (U W) as [E|[E|(q & E)]]; try discriminate. injection E as ->. contradiction (N eq_refl).
      * assert (NS : ~ string_for "true" [TLit s]).
        { intros W. destruct (string_for_lit _ _ W) as (s' & P' & _ & K). simpl in P'. injection P' as <-. congruence. }
        unfold lit_bool in L. destruct (String.eqb_spec s "true") as [->|N].
        -- injection L as <-. split; [intros _; right; eexists; split; [reflexivity|auto]|reflexivity].
        -- destruct (String.eqb s "false"); [|discriminate]. injection L as <-. split; [discriminate|]. intros W.
           destruct (U W) as [E|[E|E]]; try discriminate; [|contradiction]. injection E as ->. contradiction (N eq_refl).
    + destruct (lit_str s) as [t|] eqn:LS; [|discriminate]. cbn [obind] in H. pose proof (lit_string _ _ _ P LS) as W. subst v. clear V.
      unfold lit_bool in H. destruct (String.eqb_spec t "true") as [->|N].
      * injection H as <-. split; [|reflexivity]. intros _. right. eexists. split; [reflexivity|]. right. right.
        apply (string_lit_for _ s "true" P LS). discriminate.
      * destruct (String.eqb t "false"); [|discriminate]. injection H as <-. split; [discriminate|]. intros W.
        destruct (U W) as [E|[E|E]]; try discriminate.
        -- injection E as ->. discriminate.
        -- destruct (string_for_lit _ _ E) as (s' & P' & L' & _). rewrite P in P'. injection P' as <-. congruence.
Qed.
Lemma assigned_heeds cs seen n o : stored cs seen -> segment_ok n = true -> opt_arg seen n bool_from_meta = Some o -> heeds (assigned n cs) o.
Proof.
  intros ST S O. pose proof (stored_given _ _ _ ST S) as G. unfold opt_arg in O. unfold heeds, assigned. cbn [fst snd].
  destruct (assoc n seen) as [m|] eqn:E.
  - destruct (bool_from_meta m) as [b|] eqn:B; [|discriminate]. injection O as <-. destruct (proj1 ST _ _ E) as (MO & c & I & X).
    pose proof (affirmed m b MO B) as F.
    assert (K : (exists c r, In c cs /\ argument_for n c r /\ affirms r) <-> b = true).
    { rewrite F. split; [|intros Y; exists c, (rest m); auto]. intros (c' & r & I' & X' & Y).
      destruct (proj2 ST n c' r S I' X') as (m' & E' & <-). rewrite E in E'. injection E' as <-. exact Y. }
    assert (GG : given_in n cs) by (apply G; discriminate). destruct b; (split; [exact GG|]); intuition congruence.
  - injection O as <-. intros X. apply G in X. congruence.
Qed.
Lemma assigned_within n cs bs sn w o : opened n cs bs -> stored bs sn -> segment_ok w = true -> opt_arg sn w bool_from_meta = Some o ->
  heeds (within n (assigned w) cs) o.
Proof.
  intros O ST S H. apply (within_heeds n cs bs (assigned w) o O); [|intros (c & [] & _)|apply (assigned_heeds bs sn w o ST S H)].
  intros (c & r & I & X & _). exists c. split; [exact I|]. exists r. exact X.
Qed.

(** What struct and field say, in one go. *)
Record votes (cs : list (list tok)) (acc : option accmode) (cp cl into sinto binto breq bopt : option bool) : Prop := {
  v_getter : tells (by_getter cs) (option_map mode_word acc);
  v_mode : forall a, acc = Some a -> a <> AMNone;
  v_word : tells (by_word cs) (option_map mode_word (option_map copy_or_clone cp));
  v_copy : heeds (on_in "clone" cs \/ given_in "copy" cs, on_in "copy" cs /\ ~ on_in "clone" cs) cp;
  v_clone : heeds (on_in "copy" cs \/ given_in "clone" cs, on_in "clone" cs /\ ~ on_in "copy" cs) cl;
  v_into : heeds (word "into" cs) into;
  v_set_into : heeds (within "set" (assigned "into") cs) sinto;
  v_build_into : heeds (within "builder" (word "into") cs) binto;
  v_required : heeds (within "builder" (word "required") cs) breq;
  v_opt_in : heeds (within "builder" (word "opt_in") cs) bopt
}.
Lemma votes_stored cs seen b ac cl cp into st bl : stored cs seen ->
  opt_arg seen "get" accessor_arg = Some ac -> opt_arg seen "clone" bool_arg = Some cl -> opt_arg seen "copy" bool_arg = Some cp ->
  opt_arg seen "into" bool_arg = Some into -> opt_arg seen "set" setter_arg = Some st -> opt_arg seen "builder" (builder_arg b) = Some bl ->
  votes cs (CtxModel.obind ac accessor_arg_mode) (copy_of cl cp) (copy_of cp cl) into (CtxModel.obind st st_into)
    (CtxModel.obind bl b_into) (CtxModel.obind bl b_required) (CtxModel.obind bl b_opt_in).
Proof.
  intros ST A C1 C2 I S B. destruct (word_told _ _ _ _ ST C1 C2) as (W1 & W2 & W3).
  destruct (carried _ _ _ _ _ _ ST (eq_refl : segment_ok "set" = true) setter_carries S) as (bs & sn & OP & SB & H).
  destruct (carried _ _ _ _ _ _ ST (eq_refl : segment_ok "builder" = true) (builder_carries b) B) as (bs' & sn' & OP' & SB' & H').
  constructor; auto.
  - apply (getter_told _ _ _ ST A).
  - apply mode_some.
  - apply (stored_word _ _ "into" _ ST eq_refl I).
  - apply (assigned_within "set" cs bs sn "into" _ OP SB eq_refl). destruct st as [s|]; simpl; [apply H|subst sn; reflexivity].
  - apply (word_within "builder" cs bs' sn' "into" _ OP' SB' eq_refl). destruct bl as [s|]; simpl; [apply H'|subst sn'; reflexivity].
  - apply (word_within "builder" cs bs' sn' "required" _ OP' SB' eq_refl). destruct bl as [s|]; simpl; [apply H'|subst sn'; reflexivity].
  - apply (word_within "builder" cs bs' sn' "opt_in" _ OP' SB' eq_refl). destruct bl as [s|]; simpl; [apply H'|subst sn'; reflexivity].
Qed.
Lemma struct_voted ft ss s : struct_as ft ss s ->
  votes ss (s_accessor_mode s) (s_is_copy s) (s_is_clone s) (s_is_into s) (s_is_setter_into s) (s_is_builder_into s) (s_is_builder_required s)
    (CtxModel.obind (s_builder s) b_opt_in).
Proof.
  intros H. destruct (struct_stored _ _ _ H) as (seen & ST & S). pose proof (sargs_of_inv _ _ S) as Q.
  repeat match goal with X : _ /\ _ |- _ => destruct X end. apply (votes_stored _ seen true (s_accessor s) (s_clone s) (s_copy s) (s_into s) (s_setter s) (s_builder s)); assumption.
Qed.
Lemma field_voted ft x f : read_as ft x f ->
  votes (so_args x) (f_accessor_mode f) (f_is_copy f) (f_is_clone f) (f_is_into f) (f_is_setter_into f) (f_is_builder_into f)
    (CtxModel.obind (f_builder f) b_required) (CtxModel.obind (f_builder f) b_opt_in).
Proof.
  intros R. destruct (field_stored _ _ _ R) as (seen & f0 & ST & (i & v & t & a & S) & G).
  pose proof (field_of_inv _ _ _ _ _ _ S) as Q. repeat match goal with X : _ /\ _ |- _ => destruct X end.
  apply (votes_stored _ seen false (f_accessor f) (f_clone f) (f_copy f) (f_into f) (f_setter f) (f_builder f)); congruence.
Qed.
