(** Proofs for C78: Send and Sync of structs and futures. *)
From Coq Require Import List Bool String.
From Verif Require Import ArgsModel CtxModel TokenSpec ParseInput ParseSpec GrammarSpec RustAst CommonGen PlainGen SyncGen
  StructGen WrittenSpec WrittenProofs AutoSpec AutoModel.
Import ListNotations.
Open Scope string_scope.
Open Scope list_scope.

(** ** The traits the compiler finds are the largest that the rules allow *)
Section Auto.
  Variable B : rty.
  Definition below (p q : bool * bool) : Prop := (fst p = true -> fst q = true) /\ (snd p = true -> snd q = true).
  Lemma traits_mono t p q : below p q -> below (traits p t) (traits q t).
  Proof.
    intros H. induction t as [sd sh| |t [I J]|t _|t [I J]|t [I J]|t [I J]|t [I J]|t [I J]|t [I J]|a [I J] b [K L]];
      simpl; auto; split; simpl; rewrite ?andb_true_iff; try tauto; discriminate.
  Qed.
  Lemma self_fixed : traits (self_traits B) B = self_traits B.
  Proof.
    unfold self_traits. remember (traits (true, true) B) as p eqn:P. remember (traits p B) as q eqn:Q.
    assert (A : below q p).
    { rewrite Q, P at 1. rewrite P. apply traits_mono. split; reflexivity. }
    assert (C : below (traits q B) q) by (rewrite Q at 2; apply traits_mono, A).
    destruct A as [A1 A2], C as [C1 C2].
    destruct p as [[] []], q as [[] []]; simpl in *; try discriminate (A1 eq_refl); try discriminate (A2 eq_refl);
      try (rewrite <- P in *); try congruence;
      destruct (traits (false, false) B) as [[] []]; simpl in *; try discriminate (C1 eq_refl); try discriminate (C2 eq_refl); reflexivity.
  Qed.
  Let p := self_traits B.
  Ltac taken found_sends found_shares :=
    let H := fresh "H" in
    intros [sd sh| |t|t|t|t|t|t|t|t|a b]; simpl; intros H; try discriminate;
      try (apply andb_prop in H; destruct H);
      [ first [subst sd|subst sh]; constructor
      | constructor; first [apply found_sends; unfold p; rewrite self_fixed; exact H
                           |apply found_shares; unfold p; rewrite self_fixed; exact H]
      | .. ];
      constructor; first [apply found_sends; assumption|apply found_shares; assumption].
  Lemma found_sends : forall t, fst (traits p t) = true -> sends B t.
  Proof. cofix F with (G : forall t, snd (traits p t) = true -> shares B t); taken F G. Qed.
  Lemma found_shares : forall t, snd (traits p t) = true -> shares B t.
  Proof. cofix G with (F : forall t, fst (traits p t) = true -> sends B t); taken F G. Qed.
  Lemma at_most q : (sends B RSelf -> fst q = true) -> (shares B RSelf -> snd q = true) ->
    forall t, (sends B t -> fst (traits q t) = true) /\ (shares B t -> snd (traits q t) = true).
  Proof.
    intros Q1 Q2 t. induction t as [sd sh| |t [I J]|t _|t [I J]|t [I J]|t [I J]|t [I J]|t [I J]|t [I J]|a [I J] b [K L]];
      (split; [intros H|intros H]); simpl; auto; inversion H; subst; rewrite ?andb_true_iff; auto.
  Qed.
  Lemma self_above : (sends B RSelf -> fst p = true) /\ (shares B RSelf -> snd p = true).
  Proof.
    assert (P1 : (sends B RSelf -> fst (traits (true, true) B) = true) /\ (shares B RSelf -> snd (traits (true, true) B) = true)).
    { split; intros H; inversion H; subst; apply at_most; auto. }
    split; intros H; inversion H; subst; unfold p, self_traits; apply at_most; tauto.
  Qed.
  Theorem sends_iff t : sends B t <-> fst (traits p t) = true.
  Proof. split; [apply (at_most p (proj1 self_above) (proj2 self_above) t)|apply found_sends]. Qed.
  Theorem shares_iff t : shares B t <-> snd (traits p t) = true.
  Proof. split; [apply (at_most p (proj1 self_above) (proj2 self_above) t)|apply found_shares]. Qed.

  Lemma sends_bundle l : sends B (bundle l) <-> Forall (sends B) l.
  Proof.
    induction l as [|t l IH]; simpl; [split; constructor|]. split.
    - intros H. inversion H; subst. constructor; [assumption|]. apply IH. assumption.
    - intros H. inversion H; subst. constructor; [assumption|]. apply IH. assumption.
  Qed.
  Lemma shares_bundle l : shares B (bundle l) <-> Forall (shares B) l.
  Proof.
    induction l as [|t l IH]; simpl; [split; constructor|]. split.
    - intros H. inversion H; subst. constructor; [assumption|]. apply IH. assumption.
    - intros H. inversion H; subst. constructor; [assumption|]. apply IH. assumption.
  Qed.
End Auto.

Lemma rc_knot b r : b = RBoth (RArc RSelf) r -> sends b r -> shares b r -> sends b RSelf /\ shares b RSelf.
Proof.
  intros ->. set (b := RBoth (RArc RSelf) r). intros S C. split.
  - cofix F with (G : shares b RSelf).
    + constructor. constructor; [|exact S]. constructor; [exact F|exact G].
    + constructor. constructor; [|exact C]. constructor; [exact F|exact G].
  - cofix G with (F : sends b RSelf).
    + constructor. constructor; [|exact C]. constructor; [exact F|exact G].
    + constructor. constructor; [|exact S]. constructor; [exact F|exact G].
Qed.

(** ** The struct *)
Section Struct.
  Variables (ft : features) (c : sctx) (ss : list (list tok)) (all : list source) (decl : string -> rty).
  Hypothesis HS : struct_as ft ss (c_args c).
  Hypothesis HF : Forall2 (read_as ft) all (c_input_fields c).
  Hypothesis HT : forall f, In f (all_fields c) -> exists t, field_type c f = GOk t.
  Let B := body_rty c decl.
  Notation d_of f := (decl (f_ident f)).

  Lemma w_rather : is_rather_sync c = true <-> threaded ss all.
  Proof.
    assert (E : is_rather_sync c = obool_or (first_some (struct_list c ++ map f_is_sync (c_input_fields c))) false).
    { unfold is_rather_sync, s_is_sync, s_is_async, struct_list, s_needs_reader, s_needs_writer. simpl.
      destruct (s_mode_sync (c_args c)), (s_mode (c_args c)), (s_mode_async (c_args c)), (s_lock (c_args c)); simpl; try reflexivity.
      destruct (on_off (s_reader (c_args c))), (on_off (s_writer (c_args c))); reflexivity. }
    rewrite E. apply decide_first; [|apply no].
    apply Forall2_app; [apply (struct_votes ft c ss HS)|apply (field_votes ft c all HF)].
  Qed.
  Lemma w_rc : s_is_ref_counted (c_args c) = true <-> on_in "rc" ss.
  Proof.
    pose proof (s_word ft c ss HS "rc" (fun s => on_off (s_rc s)) ltac:(simpl; tauto)) as W.
    pose proof (on_given "rc" ss) as O. unfold heeds, word in W. cbn [fst snd] in W.
    unfold s_is_ref_counted. destruct (on_off (s_rc (c_args c))) as [[]|]; simpl; intuition discriminate.
  Qed.

  (** Fields. *)
  Lemma sends_field x f : read_as ft x f -> In f (all_fields c) -> forall d, sends B (field_rty c d f) <-> sends B d.
  Proof.
    intros R I d. unfold field_rty. destruct (HT f I) as [t T]. rewrite T.
    pose proof (proj2 (w_type ft c ss all HS HF x f R t T t) eq_refl) as W.
    assert (O : forall u, content ss x u -> (sends B (rty_of d u) <-> sends B d)).
    { intros u [_|_]; simpl; [|reflexivity]. split; [intros Z; inversion Z; assumption|constructor; assumption]. }
    destruct W as [|a e ? ? ? ?|a u ? ? ? ? ? C|u ? ? ? ? C| |u ? ? ? C|u ? ? ? C]; cbn [rty_of]; try reflexivity; try (apply O, C).
    - unfold proxy_rty. split.
      + intros Z. inversion Z as [| | | | | | | | |? ? Z1 _]; subst. inversion Z1 as [| | | | |? Z2| | | |]; subst. inversion Z2; subst. assumption.
      + intros Z. repeat constructor; assumption.
    - rewrite <- (O u C). split; [intros Z; inversion Z; assumption|constructor; assumption].
    - split; [intros Z; inversion Z; assumption|constructor; assumption].
    - rewrite <- (O u C). split; [intros Z; inversion Z; assumption|constructor; assumption].
  Qed.
  Lemma shares_field x f : read_as ft x f -> In f (all_fields c) -> forall d,
    shares B (field_rty c d f) <-> common ss all B x d.
  Proof.
    intros R I d. unfold field_rty. destruct (HT f I) as [t T]. rewrite T.
    pose proof (proj2 (w_type ft c ss all HS HF x f R t T t) eq_refl) as W.
    assert (O : forall u, content ss x u -> (sends B (rty_of d u) <-> sends B d) /\ (shares B (rty_of d u) <-> shares B d)).
    { intros u [_|_]; simpl; [|tauto]. split; (split; [intros Z; inversion Z; assumption|constructor; assumption]). }
    assert (SL : skipped x -> ~ lazily ss x) by (unfold lazily; tauto).
    unfold common, celled, protected.
    destruct W as [|a e ? ? ? ?|a u ? ? ? ? ? C|u ? ? ? ? C| |u ? ? ? C|u ? ? ? C]; cbn [rty_of].
    - tauto.
    - assert (Q : ~ skipped x) by (unfold lazily in *; tauto). unfold proxy_rty. split.
      + intros Z. inversion Z as [| | | | | | | |? ? Z1 _]; subst. inversion Z1 as [| | | |? Z2 Z3| | | |]; subst.
        inversion Z2; inversion Z3; subst. tauto.
      + intros (_ & Z1 & Z2). assert (sends B d) by (apply Z2; tauto). repeat constructor; assumption.
    - destruct (O u C) as [O1 O2]. rewrite <- O2, <- O1. split.
      + intros Z. inversion Z; subst. tauto.
      + intros (_ & Z1 & Z2). constructor; tauto.
    - destruct (O u C) as [O1 O2]. rewrite O2. tauto.
    - split; [intros Z; inversion Z|]. tauto.
    - split; [intros Z; inversion Z|]. tauto.
    - destruct (O u C) as [O1 O2]. rewrite O2. tauto.
  Qed.

  (** The hidden field. *)
  Lemma hidden_kind : hidden_rty c = if is_rather_sync c then RArc RSelf else RRc RSelf.
  Proof. unfold hidden_rty, weak_type. destruct (is_rather_sync c); reflexivity. Qed.
  Lemma myself_kind : myself_rty c = if is_rather_sync c then RArc RSelf else RRc RSelf.
  Proof. unfold myself_rty, rc_type. destruct (is_rather_sync c); reflexivity. Qed.
  Definition input_rtys : list rty := map (fun f => field_rty c (d_of f) f) (c_input_fields c).
  Lemma body_plain : ~ on_in "rc" ss -> B = bundle input_rtys.
  Proof.
    intros N. unfold B, body_rty, extra_fields. destruct (s_is_ref_counted (c_args c)) eqn:E; [|reflexivity].
    contradiction N. apply w_rc, E.
  Qed.
  Lemma body_rc : on_in "rc" ss ->
    (threaded ss all -> B = RBoth (RArc RSelf) (bundle input_rtys)) /\
    (~ threaded ss all -> exists h, (h = RRc RSelf \/ h = RCell (RRc RSelf)) /\ B = RBoth h (bundle input_rtys)).
  Proof.
    intros Y. apply w_rc in Y. rewrite <- w_rather.
    assert (M : exists n, myself_field c = Some n).
    { unfold s_is_ref_counted in Y. unfold myself_field, myself_name. destruct (s_rc (c_args c)); [|discriminate Y]. eexists; reflexivity. }
    destruct M as [n M]. unfold B, body_rty. pose proof hidden_kind as HK.
    assert (E : extra_fields c = [rc_field n (weak_type c)]) by (unfold extra_fields; rewrite Y, M; reflexivity).
    assert (I : In (rc_field n (weak_type c)) (all_fields c)) by (unfold all_fields; rewrite E; left; reflexivity).
    destruct (HT _ I) as [t T]. rewrite E. cbn [map app bundle fold_right]. fold input_rtys. fold (bundle input_rtys).
    set (h := rc_field n (weak_type c)) in *.
    assert (S : is_sync c h = is_rather_sync c) by reflexivity.
    unfold field_rty. rewrite T. unfold field_type in T. rewrite S in T. rewrite HK.
    destruct (is_rather_sync c).
    - split; [intros _|intros Q; contradiction (Q eq_refl)].
      unfold sync_type in T. destruct (wrapper_type_ok (cfg_of c h)); [cbn [gbind] in T|discriminate|discriminate].
      injection T as <-. reflexivity.
    - split; [discriminate|]. intros _. injection T as <-. unfold plain_type. simpl. unfold is_lazy, f_is_lazy, unless_skip. simpl.
      unfold is_optional, f_is_skipped. simpl. destruct (is_inner_mut c h); simpl; eexists; (split; [|reflexivity]); auto.
  Qed.
  Lemma in_input f : In f (c_input_fields c) -> In f (all_fields c).
  Proof. intros I. apply in_or_app. right. exact I. Qed.
  Lemma all_fields2 (P : rty -> Prop) (Q : source -> rty -> Prop) :
    (forall x f, read_as ft x f -> In f (c_input_fields c) -> (P (field_rty c (d_of f) f) <-> Q x (d_of f))) ->
    (Forall P input_rtys <-> Forall2 (fun x f => Q x (d_of f)) all (c_input_fields c)).
  Proof.
    unfold input_rtys. revert HF. generalize (c_input_fields c). intros fs F. 
    induction F as [|x f xs fs R F IH]; intros H; simpl; [split; constructor|].
    specialize (IH (fun x f R I => H x f R (or_intror I))). specialize (H x f R (or_introl eq_refl)). split.
    - intros G. inversion G; subst. constructor; tauto.
    - intros G. inversion G; subst. constructor; tauto.
  Qed.
  Definition all_send : Prop := Forall2 (fun (_ : source) f => sends B (d_of f)) all (c_input_fields c).
  Definition all_common : Prop := Forall2 (fun x f => common ss all B x (d_of f)) all (c_input_fields c).
  Lemma inputs_send : sends B (bundle input_rtys) <-> all_send.
  Proof. rewrite sends_bundle. apply (all_fields2 (sends B) (fun _ => sends B)). intros x f R I. apply (sends_field x f R (in_input f I)). Qed.
  Lemma inputs_share : shares B (bundle input_rtys) <-> all_common.
  Proof. rewrite shares_bundle. apply (all_fields2 (shares B) (common ss all B)). intros x f R I. apply (shares_field x f R (in_input f I)). Qed.

  Lemma on_or_not : on_in "rc" ss \/ ~ on_in "rc" ss.
  Proof. rewrite <- w_rc. destruct (s_is_ref_counted (c_args c)); [left; reflexivity|right; discriminate]. Qed.
  Lemma threaded_or_not : threaded ss all \/ ~ threaded ss all.
  Proof. rewrite <- w_rather. destruct (is_rather_sync c); [left; reflexivity|right; discriminate]. Qed.
  Lemma rc_both : B = RBoth (RArc RSelf) (bundle input_rtys) -> all_send -> all_common -> sends B RSelf /\ shares B RSelf.
  Proof. intros E S C. apply inputs_send in S. apply inputs_share in C. apply (rc_knot _ _ E S C). Qed.
  Theorem w_send : sends B RSelf <-> all_send /\ (on_in "rc" ss -> threaded ss all /\ all_common).
  Proof.
    destruct on_or_not as [Y|N].
    - destruct (body_rc Y) as [T P]. destruct threaded_or_not as [H|H].
      + specialize (T H). split.
        * intros W. inversion W as [|W1| | | | | | | |]; subst. rewrite T in W1 at 2. inversion W1 as [| | | | | | | | |? ? W2 W3]; subst.
          inversion W2; subst. match goal with X : shares B RSelf |- _ => inversion X as [|X1| | | | | | |]; subst end.
          rewrite T in X1 at 2. inversion X1; subst. rewrite <- inputs_send, <- inputs_share. auto.
        * intros [A K]. apply (rc_both T A). apply K, Y.
      + destruct (P H) as (h & E & Q). split.
        * intros W. exfalso. inversion W as [|W1| | | | | | | |]; subst. rewrite Q in W1 at 2. inversion W1 as [| | | | | | | | |? ? W2 W3]; subst.
          destruct E as [-> | ->]; inversion W2 as [| | | |? W4| | | | |]; subst. inversion W4.
        * intros [_ K]. contradiction H. apply K, Y.
    - pose proof (body_plain N) as E. split.
      + intros W. inversion W as [|W1| | | | | | | |]; subst. rewrite E in W1 at 2. rewrite <- inputs_send. tauto.
      + intros [A _]. constructor. rewrite E at 2. apply inputs_send, A.
  Qed.
  Theorem w_share : shares B RSelf <-> all_common /\ (on_in "rc" ss -> threaded ss all /\ all_send).
  Proof.
    destruct on_or_not as [Y|N].
    - destruct (body_rc Y) as [T P]. destruct threaded_or_not as [H|H].
      + specialize (T H). split.
        * intros W. inversion W as [|W1| | | | | | |]; subst. rewrite T in W1 at 2. inversion W1 as [| | | | | | | |? ? W2 W3]; subst.
          inversion W2 as [| |? W4 _| | | | | |]; subst. apply w_send in W4. apply inputs_share in W3. tauto.
        * intros [A K]. apply (rc_both T); [apply K, Y|exact A].
      + destruct (P H) as (h & E & Q). split.
        * intros W. exfalso. inversion W as [|W1| | | | | | |]; subst. rewrite Q in W1 at 2. inversion W1 as [| | | | | | | |? ? W2 W3]; subst.
          destruct E as [-> | ->]; inversion W2.
        * intros [_ K]. contradiction H. apply K, Y.
    - pose proof (body_plain N) as E. split.
      + intros W. inversion W as [|W1| | | | | | |]; subst. rewrite E in W1 at 2. rewrite <- inputs_share. tauto.
      + intros [A _]. constructor. rewrite E at 2. apply inputs_share, A.
  Qed.

  (** ** The bounds of the library *)
  Lemma two_in {X Y} (P : X -> Y -> Prop) l m : Forall2 P l m -> forall x, In x l -> exists y, In y m /\ P x y.
  Proof.
    induction 1 as [|a b l m H F IH]; intros x []; [subst; exists b; simpl; auto|].
    destruct (IH x H0) as (y & I & Q). exists y. simpl. auto.
  Qed.
  Lemma two_in' {X Y} (P : X -> Y -> Prop) l m : Forall2 P l m -> forall y, In y m -> exists x, In x l /\ P x y.
  Proof.
    induction 1 as [|a b l m H F IH]; intros y []; [subst; exists a; simpl; auto|].
    destruct (IH y H0) as (x & I & Q). exists x. simpl. auto.
  Qed.
  Lemma awaited_type x f : read_as ft x f -> In f (all_fields c) ->
    (awaited_lazy ss all x <-> exists e, field_type c f = GOk (TProxy true e)).
  Proof.
    intros R I. destruct (HT f I) as [t T]. pose proof (w_type ft c ss all HS HF x f R t T) as W.
    assert (SL : skipped x -> ~ lazily ss x) by (unfold lazily; tauto). unfold awaited_lazy. split.
    - intros (A & Y & L). pose proof (proj2 (W t) eq_refl) as Z. rewrite T.
      destruct Z; try tauto. unfold told in *. destruct a; [eexists; reflexivity|tauto].
    - intros (e & E). rewrite T in E. injection E as ->. pose proof (proj2 (W _) eq_refl) as Z.
      inversion Z as [|a e' ? ? K ?|? ? ? ? ? ? ? C|? ? ? ? ? C| |? ? ? ? C|? ? ? ? C]; subst; try (inversion C; fail).
      unfold told in K. tauto.
  Qed.
  Lemma hidden_type f : In f (extra_fields c) -> forall a e, field_type c f <> GOk (TProxy a e).
  Proof.
    unfold extra_fields. destruct (s_is_ref_counted (c_args c)); [|intros []]. destruct (myself_field c) as [n|]; [|intros []].
    intros [<-|[]] a e. unfold field_type, sync_type, plain_type. set (h := rc_field n (weak_type c)).
    destruct (is_sync c h).
    - destruct (wrapper_type_ok (cfg_of c h)); simpl; discriminate.
    - simpl. unfold is_lazy, f_is_lazy, unless_skip. simpl. destruct (is_inner_mut c h), (is_optional c h); discriminate.
  Qed.
  Theorem w_bounds : bounds_met c decl = true <-> ((exists x, In x all /\ awaited_lazy ss all x) -> shares B RSelf).
  Proof.
    unfold bounds_met. fold B. rewrite forallb_forall.
    assert (SH : shares B RSelf <-> snd (self_traits B) = true) by apply (shares_iff B RSelf). split.
    - intros A (x & I & L). destruct (two_in _ _ _ HF x I) as (f & J & R).
      apply (awaited_type x f R (in_input f J)) in L. destruct L as [e L]. specialize (A f (in_input f J)). rewrite L in A.
      apply SH, A.
    - intros A f I. destruct (field_type c f) as [[]| |] eqn:T; try reflexivity. destruct a; [|reflexivity].
      apply SH, A. apply in_app_or in I. destruct I as [I|I]; [contradiction (hidden_type f I _ _ T)|].
      destruct (two_in' _ _ _ HF f I) as (x & J & R). exists x. split; [exact J|].
      apply (awaited_type x f R (in_input f I)). eexists; exact T.
  Qed.

  (** ** Futures *)
  Lemma plain_async f ms m : plain_methods (cfg_of c f) = GOk ms -> In m ms -> m_async m = false.
  Proof.
    unfold plain_methods. destruct (g_skip (cfg_of c f)); [intros E; injection E as <-; intros []|].
    unfold plain_accessor, plain_accessor_mut, plain_setter, plain_clearer, plain_predicate.
    intros E K.
    repeat match type of E with
    | context [fallible_return_type ?g ?t] => destruct (fallible_return_type g t); cbn [gbind] in E; try discriminate E
    | context [if ?b then _ else _] => destruct b; cbn [gbind] in E; try discriminate E
    end; injection E as <-;
    repeat match goal with H : In _ (_ :: _) |- _ => destruct H as [<-|H] | H : In _ [] |- _ => destruct H end; reflexivity.
  Qed.
  Section Future.
    Variables (x : source) (f : field) (passed : rty).
    Hypothesis R : read_as ft x f.
    Hypothesis I : In f (c_input_fields c).
    Section Shared.
    Hypothesis SH : shares B RSelf.

    Lemma field_shared : shares B (field_rty c (d_of f) f).
    Proof.
      inversion SH as [|Q| | | | | | |]; subst.
      assert (A : shares B (bundle (map (field_rty c (hidden_rty c)) (extra_fields c) ++ input_rtys))) by exact Q.
      apply shares_bundle in A. rewrite Forall_forall in A. apply A, in_or_app. right.
      apply (in_map (fun f => field_rty c (d_of f) f) _ f I).
    Qed.
    Lemma proxied a e : field_type c f = GOk (TProxy a e) -> sends B (d_of f) /\ shares B (d_of f).
    Proof.
      intros T. pose proof field_shared as Q. unfold field_rty in Q. rewrite T in Q. simpl in Q.
      inversion Q as [| | | | | | | |? ? Q1 _]; subst. inversion Q1 as [| | | |? Q2 Q3| | | |]; subst.
      inversion Q2; inversion Q3; subst. split; assumption.
    Qed.
    Lemma locked_too a t : field_type c f = GOk (TLock a t) -> t = TT \/ t = TOpt TT -> sends B (d_of f).
    Proof.
      intros T K. pose proof field_shared as Q. unfold field_rty in Q. rewrite T in Q. simpl in Q.
      inversion Q as [| | | |? Q2 Q3| | | |]; subst. destruct K as [-> | ->]; [exact Q2|]. inversion Q2; assumption.
    Qed.
    Lemma callee_sends m : sends B (callee_rty c decl f m).
    Proof.
      unfold callee_rty. pose proof field_shared as Q.
      destruct (field_type c f) as [t| |] eqn:T; [|constructor; exact Q|constructor; exact Q].
      destruct t; try (constructor; exact Q). destruct (proxied _ _ T) as [S1 S2].
      assert (Q' : shares B (proxy_rty (d_of f))) by (unfold field_rty in Q; rewrite T in Q; exact Q).
      destruct m; unfold init_rty, builder_rty; repeat (constructor; auto).
    Qed.
    Lemma kept_sends : sends B (kept c (ERef (builder_self (cfg_of c f)))).
    Proof.
      unfold builder_self. simpl. destruct (s_is_ref_counted (c_args c)) eqn:Y; simpl; [|constructor; exact SH].
      constructor; [|constructor; exact SH]. rewrite myself_kind.
      apply w_share in SH. destruct SH as [C K]. apply w_rc in Y. destruct (K Y) as [T A].
      rewrite (proj2 w_rather T). constructor; [apply w_send; auto|apply w_share; auto].
    Qed.
    End Shared.
    Notation g := (cfg_of c f).
    Definition fine (m : mdecl) : Prop :=
      m_async m = true -> m_self m = SRef /\ (shares B RSelf -> sends B (live c decl f (m_body m))) /\
        (m_arg m = None \/ m_arg m = Some TIntoT \/ (m_arg m = Some TT /\ (g_lazy g = true \/ g_lock g = true))).
    Ltac listed := repeat match goal with H : In _ (_ :: _) |- _ => destruct H as [<-|H] | H : In _ [] |- _ => destruct H end.
    Ltac shown := let A := fresh "A" in intros A; cbn [m_async method method_mut] in A;
      first [ discriminate A
      | clear A; split; [reflexivity|split; [intros SH|cbn [m_arg method method_mut arg_ty]; auto]];
        cbn [m_body method method_mut live fallible_shortcut fallible_ok_return cmethod arg_val];
        repeat first [apply callee_sends; assumption | apply kept_sends; assumption | constructor ] ].
    Ltac cases := unfold await, fallible_shortcut, fallible_ok_return, cmethod, arg_val, arg_ty;
      repeat match goal with
      | |- (if ?b then _ else _) = GOk _ -> _ => let E := fresh "E" in destruct b eqn:E
      | |- context [fallible_return_type ?g ?t] => destruct (fallible_return_type g t); cbn [gbind]; try discriminate
      | |- context [wrapper_type_ok ?g] => destruct (wrapper_type_ok g); cbn [gbind]; try discriminate
      end.
    Ltac one := let E := fresh "E" in let K := fresh "K" in intros E K; injection E as <-; listed;
      repeat match goal with |- context [if ?b then _ else _] => let E := fresh "E" in destruct b eqn:E end; shown.
    Lemma reader_fine k ms m : reader_method g k = GOk ms -> In m ms -> fine m.
    Proof. unfold reader_method. cases; one. Qed.
    Lemma accessor_fine ms m : sync_accessor g = GOk ms -> In m ms -> fine m.
    Proof. unfold sync_accessor. cases; try apply reader_fine; one. Qed.
    Lemma accessor_mut_fine ms m : sync_accessor_mut g = GOk ms -> In m ms -> fine m.
    Proof. unfold sync_accessor_mut. cases; one. Qed.
    Lemma reader_fine' ms m : sync_reader g = GOk ms -> In m ms -> fine m.
    Proof. unfold sync_reader. cases; try apply reader_fine; one. Qed.
    Lemma writer_fine ms m : sync_writer g = GOk ms -> In m ms -> fine m.
    Proof. unfold sync_writer. cases; one. Qed.
    Lemma setter_fine ms m : sync_setter g = GOk ms -> In m ms -> fine m.
    Proof. unfold sync_setter. cases; one. Qed.
    Lemma clearer_fine ms m : sync_clearer g = GOk ms -> In m ms -> fine m.
    Proof. unfold sync_clearer. cases; one. Qed.
    Lemma predicate_fine ms m : sync_predicate g = GOk ms -> In m ms -> fine m.
    Proof. unfold sync_predicate. cases; one. Qed.
    Lemma plain_fine ms m : plain_methods g = GOk ms -> In m ms -> fine m.
    Proof. intros E K A. rewrite (plain_async f ms m E K) in A. discriminate A. Qed.
    Lemma methods_fine ms m : field_methods c f = GOk ms -> In m ms -> fine m.
    Proof.
      unfold field_methods. destruct (is_sync c f); [|apply plain_fine]. unfold sync_methods.
      destruct (g_skip g); [intros E; injection E as <-; intros []|].
      destruct (sync_accessor g) as [l1| |] eqn:E1; cbn [gbind]; try discriminate.
      destruct (sync_accessor_mut g) as [l2| |] eqn:E2; cbn [gbind]; try discriminate.
      destruct (sync_reader g) as [l3| |] eqn:E3; cbn [gbind]; try discriminate.
      destruct (sync_writer g) as [l4| |] eqn:E4; cbn [gbind]; try discriminate.
      destruct (sync_setter g) as [l5| |] eqn:E5; cbn [gbind]; try discriminate.
      destruct (sync_clearer g) as [l6| |] eqn:E6; cbn [gbind]; try discriminate.
      destruct (sync_predicate g) as [l7| |] eqn:E7; cbn [gbind]; try discriminate.
      destruct (if g_lazy g && g_async g then wrapper_type_ok g else GOk tt); cbn [gbind]; try discriminate.
      intros E. injection E as <-. rewrite !in_app_iff. intros K.
      destruct K as [K|[K|[K|[K|[K|[K|K]]]]]];
        [apply (accessor_fine l1)|apply (accessor_mut_fine l2)|apply (reader_fine' l3)|apply (writer_fine l4)
        |apply (setter_fine l5)|apply (clearer_fine l6)|apply (predicate_fine l7)]; assumption.
    Qed.
  End Future.
  Lemma async_sync f ms m : field_methods c f = GOk ms -> In m ms -> m_async m = true ->
    is_sync c f = true /\ f_is_skipped f = false.
  Proof.
    unfold field_methods. intros M K A. destruct (is_sync c f).
    - split; [reflexivity|]. unfold sync_methods in M. simpl in M. destruct (f_is_skipped f); [|reflexivity].
      injection M as <-. destruct K.
    - exfalso. rewrite (plain_async f ms m M K) in A. discriminate A.
  Qed.
  Theorem w_future x f passed ms m : read_as ft x f -> In f (c_input_fields c) ->
    field_methods c f = GOk ms -> In m ms -> m_async m = true ->
    (sends B (future_rty c decl f passed m) <-> shares B RSelf /\ (m_arg m = Some TIntoT -> sends B passed)).
  Proof.
    intros R I M K A. unfold future_rty. rewrite sends_bundle. split.
    - intros H. inversion H as [|? ? H1 H2]; subst. inversion H2 as [|? ? H3 H4]; subst. split.
      + assert (S : m_self m = SRef) by apply (methods_fine f I ms m M K A). rewrite S in H1. inversion H1; assumption.
      + intros E. rewrite E in H3. exact H3.
    - intros [SH P]. destruct (methods_fine f I ms m M K A) as (S & L & G).
      constructor; [rewrite S; constructor; exact SH|]. constructor; [|constructor; [exact (L SH)|constructor]].
      destruct G as [-> |[E|[E Q]]]; [constructor|rewrite E; apply P, E|]. rewrite E. simpl.
      destruct (async_sync f ms m M K A) as [Y N]. destruct (HT f (in_input f I)) as [t T].
      pose proof T as T'. unfold field_type in T'. rewrite Y in T'. unfold sync_type in T'.
      destruct (wrapper_type_ok (cfg_of c f)); [cbn [gbind] in T'|discriminate|discriminate]. injection T' as T'.
      cbn [g_skip cfg_of] in T'. rewrite N in T'. change (g_lazy (cfg_of c f)) with (is_lazy c f) in Q. destruct (is_lazy c f).
      + subst t. apply (proxied f I SH _ _ T).
      + destruct Q as [Q|Q]; [discriminate|]. unfold maybe_locked in T'. rewrite Q in T'. subst t.
        apply (locked_too f I SH _ _ T). unfold maybe_optional. destruct (g_optional (cfg_of c f)); auto.
  Qed.
End Struct.

Theorem promised : forall ft c ss all decl b,
  struct_as ft ss (c_args c) -> Forall2 (read_as ft) all (c_input_fields c) ->
  (forall f, In f (all_fields c) -> exists t, field_type c f = GOk t) -> b = body_rty c decl ->
  threaded ss all -> (forall x, In x all -> protected ss all x) ->
  (forall f, In f (c_input_fields c) -> sends b (decl (f_ident f)) /\ shares b (decl (f_ident f))) ->
  sends b RSelf /\ shares b RSelf.
Proof.
  intros ft c ss all decl b HS HF HT -> T P D.
  assert (S : all_send c all decl).
  { unfold all_send. set (B := body_rty c decl) in *.
    assert (H : forall xs fs, Forall2 (read_as ft) xs fs -> incl fs (c_input_fields c) ->
      Forall2 (fun (_ : source) f => sends B (decl (f_ident f))) xs fs).
    { induction 1 as [|x f xs fs R F IH]; intros J; constructor.
      - apply D, J. left. reflexivity.
      - apply IH. intros z K. apply J. right. exact K. }
    apply (H _ _ HF). apply incl_refl. }
  assert (C : all_common c ss all decl).
  { unfold all_common. set (B := body_rty c decl) in *.
    assert (H : forall xs fs, Forall2 (read_as ft) xs fs -> incl xs all -> incl fs (c_input_fields c) ->
      Forall2 (fun x f => common ss all B x (decl (f_ident f))) xs fs).
    { induction 1 as [|x f xs fs R F IH]; intros I J; constructor.
      - pose proof (P x (I x (or_introl eq_refl))) as Q. destruct (D f (J f (or_introl eq_refl))) as [D1 D2].
        split; [|split; [exact D2|intros _; exact D1]]. intros [N _]. destruct Q as [Q _]. contradiction.
      - apply IH; intros z K; [apply I|apply J]; right; exact K. }
    apply (H _ _ HF); apply incl_refl. }
  split; [apply (w_send ft c ss all decl HS HF HT)|apply (w_share ft c ss all decl HS HF HT)]; auto.
Qed.
