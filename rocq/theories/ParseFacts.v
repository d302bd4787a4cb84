(** Facts about the reader of ParseModel.v: lists of arguments, the derived loop, and
    what does not depend on the order of arguments. *)
From Coq Require Import List Bool String Permutation.
From Verif Require Import ArgsModel TokenSpec TokenModel ParseModel ParseSpec.
Import ListNotations.
Open Scope string_scope.
Open Scope list_scope.

(** ** Commas *)
Lemma split_nonempty ts : split_commas ts <> [].
Proof.
  destruct ts as [|t r]; simpl; [discriminate|].
  destruct t; try (destruct (split_commas r); discriminate).
  destruct (String.eqb s ","); [discriminate|]. destruct (split_commas r); discriminate.
Qed.
Lemma split_cons_other t r : t <> comma ->
  split_commas (t :: r) = match split_commas r with c :: cs => (t :: c) :: cs | [] => [[t]] end.
Proof.
  intros N. destruct t; try reflexivity. simpl.
  destruct (String.eqb_spec s ","); [|reflexivity]. subst. exfalso. apply N. reflexivity.
Qed.
Lemma split_plain a : ~ In comma a -> split_commas a = [a].
Proof.
  induction a as [|t a IH]; intros N; [reflexivity|].
  rewrite split_cons_other by (intros E; apply N; left; exact E).
  rewrite IH by (intros I; apply N; right; exact I). reflexivity.
Qed.
Lemma split_app a ts : ~ In comma a -> split_commas (a ++ comma :: ts) = a :: split_commas ts.
Proof.
  induction a as [|t a IH]; intros N; [reflexivity|].
  simpl app. rewrite split_cons_other by (intros E; apply N; left; exact E).
  rewrite IH by (intros I; apply N; right; exact I). reflexivity.
Qed.
Lemma drop_cons a l : l <> [] -> drop_empty_last (a :: l) = a :: drop_empty_last l.
Proof.
  intros N. unfold drop_empty_last. simpl rev.
  destruct (rev l) as [|x r] eqn:E.
  - exfalso. apply N. rewrite <- (rev_involutive l), E. reflexivity.
  - simpl. destruct x as [|y x]; [|reflexivity].
    rewrite rev_app_distr. reflexivity.
Qed.
Lemma arguments_terminated cs ts : arguments cs ts -> terminated ts = cs.
Proof.
  intros A. unfold terminated. induction A as [|a [N C]|a l ts [N C] A IH].
  - reflexivity.
  - rewrite split_plain by exact C. unfold drop_empty_last. simpl. destruct a; [contradiction|reflexivity].
  - rewrite split_app by exact C. rewrite drop_cons by apply split_nonempty. rewrite IH. reflexivity.
Qed.
Lemma arguments_list cs ts : arguments cs ts -> parse_meta_list ts = all_some parse_nested cs.
Proof. intros A. unfold parse_meta_list. rewrite (arguments_terminated _ _ A). reflexivity. Qed.
Lemma arguments_joined cs : Forall one_argument cs -> arguments cs (joined cs).
Proof.
  induction 1 as [|c r O F IH]; [constructor|].
  destruct r as [|d r]; [constructor; exact O|].
  change (joined (c :: d :: r)) with (c ++ comma :: joined (d :: r)). constructor; assumption.
Qed.

(** The converse: what the reader accepts is a list of arguments. *)
Lemma split_spec ts cs : split_commas ts = cs ->
  (forall c, In c cs -> ~ In comma c) /\
  match cs with [] => False | c :: r => ts = fold_left (fun a b => a ++ comma :: b) r c end.
Proof.
  revert cs. induction ts as [|t ts IH]; intros cs E; subst cs; simpl.
  - split; [|reflexivity]. intros c [<-|[]] [].
  - destruct (IH _ eq_refl) as [H1 H2]. destruct (split_commas ts) as [|c cs] eqn:S; [contradiction|].
    assert (K : t = comma \/ t <> comma).
    { destruct t; try (right; discriminate). destruct (String.eqb_spec s ","); [subst; left; reflexivity|].
      right. intros E. inversion E. contradiction. }
    destruct K as [-> | K].
    + simpl. split.
      * intros x [<-|I] J; [destruct J|]. exact (H1 x I J).
      * subst ts. clear. change (comma :: fold_left (fun a b => a ++ comma :: b) cs c
            = fold_left (fun a b => a ++ comma :: b) (c :: cs) []). simpl.
        change (comma :: c) with ([comma] ++ c).
        change (comma :: fold_left (fun a b : list tok => a ++ comma :: b) cs c)
          with ([comma] ++ fold_left (fun a b : list tok => a ++ comma :: b) cs c).
        generalize ([comma] : list tok) as p. revert c.
        induction cs as [|d cs IH]; intros c p; [reflexivity|]. simpl. rewrite IH.
        rewrite <- app_assoc. reflexivity.
    + assert (Q : match t with
              | TPunct p => if String.eqb p "," then [] :: c :: cs else (t :: c) :: cs
              | _ => (t :: c) :: cs end = (t :: c) :: cs).
      { destruct t; try reflexivity. destruct (String.eqb_spec s ","); [|reflexivity].
        subst. exfalso. apply K. reflexivity. }
      rewrite Q. split.
      * intros x [<-|I].
        -- intros [J|J]; [exact (K J)|]. exact (H1 c (or_introl eq_refl) J).
        -- exact (H1 x (or_intror I)).
      * subst ts. clear.
        change (t :: c) with ([t] ++ c).
        change (t :: fold_left (fun a b : list tok => a ++ comma :: b) cs c)
          with ([t] ++ fold_left (fun a b : list tok => a ++ comma :: b) cs c).
        generalize ([t] : list tok) as p. revert c.
        induction cs as [|d cs IH]; intros c p; [reflexivity|]. simpl. rewrite IH.
        rewrite <- app_assoc. reflexivity.
Qed.

(** ** all_some *)
Lemma all_some_cons {A B} (f : A -> option B) a l :
  all_some f (a :: l) = match f a, all_some f l with Some b, Some bs => Some (b :: bs) | _, _ => None end.
Proof. simpl. unfold obind. destruct (f a); [|reflexivity]. destruct (all_some f l); reflexivity. Qed.
Lemma all_some_Forall2 {A B} (f : A -> option B) l bs :
  all_some f l = Some bs <-> Forall2 (fun a b => f a = Some b) l bs.
Proof.
  revert bs. induction l as [|a l IH]; intros bs.
  - simpl. split; [intros E; inversion E; constructor|]. intros F. inversion F. reflexivity.
  - rewrite all_some_cons. split.
    + destruct (f a) eqn:E; [|discriminate]. destruct (all_some f l) eqn:E'; [|discriminate].
      intros Q; inversion Q; subst. constructor; [exact E|]. apply IH. reflexivity.
    + intros F. inversion F; subst. rewrite H1. apply IH in H3. rewrite H3. reflexivity.
Qed.
Lemma all_some_In {A B} (f : A -> option B) l bs a :
  all_some f l = Some bs -> In a l -> exists b, In b bs /\ f a = Some b.
Proof.
  intros E. apply all_some_Forall2 in E. induction E as [|x y l l' E F IH]; [intros []|].
  intros [<-|I]; [exists y; split; [left; reflexivity|exact E]|].
  destruct (IH I) as (b & H1 & H2). exists b; split; [right; exact H1|exact H2].
Qed.
Lemma all_some_In_r {A B} (f : A -> option B) l bs b :
  all_some f l = Some bs -> In b bs -> exists a, In a l /\ f a = Some b.
Proof.
  intros E. apply all_some_Forall2 in E. induction E as [|x y l l' E F IH]; [intros []|].
  intros [<-|I]; [exists x; split; [left; reflexivity|exact E]|].
  destruct (IH I) as (a & H1 & H2). exists a; split; [right; exact H1|exact H2].
Qed.
Lemma all_some_app {A B} (f : A -> option B) l l' bs bs' :
  all_some f l = Some bs -> all_some f l' = Some bs' -> all_some f (l ++ l') = Some (bs ++ bs').
Proof.
  intros E E'. apply all_some_Forall2. apply Forall2_app; apply all_some_Forall2; assumption.
Qed.

(** Two results: both refused, or both given and related. *)
Definition orel {A B} (R : A -> B -> Prop) (o : option A) (o' : option B) : Prop :=
  match o, o' with
  | None, None => True
  | Some a, Some b => R a b
  | _, _ => False
  end.
Lemma all_some_perm {A B} (f : A -> option B) l l' :
  Permutation l l' -> orel (@Permutation B) (all_some f l) (all_some f l').
Proof.
  induction 1 as [|x l l' P IH|x y l|l l' l'' P IH P' IH'].
  - simpl. constructor.
  - rewrite !all_some_cons. destruct (f x); [|exact I].
    destruct (all_some f l), (all_some f l'); simpl in IH; try contradiction; simpl; auto.
  - rewrite !all_some_cons. destruct (f x), (f y), (all_some f l); simpl; auto. constructor.
  - destruct (all_some f l), (all_some f l'), (all_some f l''); simpl in *; try contradiction; auto.
    eapply perm_trans; eassumption.
Qed.

(** ** The derived loop *)
Lemma mem_In s l : mem s l = true <-> In s l.
Proof.
  unfold mem. rewrite existsb_exists. split.
  - intros (x & H1 & H2). apply String.eqb_eq in H2. subst. exact H1.
  - intros I. exists s. split; [exact I|apply String.eqb_refl].
Qed.
Lemma assoc_In {A} n (l : list (string * A)) a : assoc n l = Some a -> In (n, a) l.
Proof.
  induction l as [|[k x] l IH]; [discriminate|]. simpl.
  destruct (String.eqb_spec n k); [intros E; inversion E; subst; left; reflexivity|]. intros E. right. auto.
Qed.
Lemma assoc_NoDup {A} n (l : list (string * A)) a : NoDup (map fst l) -> In (n, a) l -> assoc n l = Some a.
Proof.
  induction l as [|[k x] l IH]; [intros _ []|]. simpl. intros D I. inversion D; subst.
  destruct I as [E|I].
  - inversion E; subst. rewrite String.eqb_refl. reflexivity.
  - destruct (String.eqb_spec n k); [|auto]. subst. exfalso. apply H1. apply in_map_iff.
    exists (k, a). split; [reflexivity|exact I].
Qed.
Lemma assoc_none {A} n (l : list (string * A)) : assoc n l = None <-> ~ In n (map fst l).
Proof.
  induction l as [|[k x] l IH]; simpl; [tauto|].
  destruct (String.eqb_spec n k); [subst; split; [discriminate|intros H; exfalso; apply H; left; reflexivity]|].
  rewrite IH. split; [intros H [E|E]; [symmetry in E; contradiction|auto]|tauto].
Qed.
Definition entry (m : smeta) : string * smeta := (meta_name m, m).
Lemma collect_some known seen items out :
  NoDup (map fst seen) ->
  collect known seen items = Some out <->
  exists ms, items = map NMeta ms /\ Forall (fun m => In (meta_name m) known) ms /\
    NoDup (map meta_name ms ++ map fst seen) /\ out = rev (map entry ms) ++ seen.
Proof.
  revert seen out. induction items as [|i items IH]; intros seen out D; simpl.
  - split.
    + intros E; inversion E; subst. exists []. repeat split; auto.
    + intros (ms & H1 & _ & _ & H2). destruct ms; [|discriminate]. subst. reflexivity.
  - destruct i as [s|m].
    + split; [discriminate|]. intros (ms & H1 & _). destruct ms; discriminate.
    + destruct (mem (meta_name m) known) eqn:M; simpl.
      * destruct (assoc (meta_name m) seen) eqn:A; simpl.
        -- split; [discriminate|]. intros (ms & H1 & H2 & H3 & H4). destruct ms as [|m' ms]; [discriminate|].
           inversion H1; subst. simpl in H3. inversion H3; subst. exfalso. match goal with H : ~ In _ _ |- _ => apply H end. apply in_or_app. right.
           apply assoc_In in A. apply in_map_iff. exists (meta_name m', s). split; [reflexivity|exact A].
        -- apply assoc_none in A.
           assert (D' : NoDup (map fst ((meta_name m, m) :: seen))) by (simpl; constructor; assumption).
           rewrite (IH _ _ D'). clear IH. split.
           ++ intros (ms & H1 & H2 & H3 & H4). exists (m :: ms). subst. repeat split.
              ** constructor; [apply mem_In; exact M|exact H2].
              ** simpl in *. apply NoDup_remove in H3. destruct H3. constructor; assumption.
              ** simpl. rewrite <- app_assoc. reflexivity.
           ++ intros (ms & H1 & H2 & H3 & H4). destruct ms as [|m' ms]; [discriminate|].
              inversion H1; subst. inversion H2; subst. exists ms. repeat split; auto.
              ** simpl in H3 |- *. inversion H3; subst.
                 apply NoDup_Add with (a := meta_name m') (l := map meta_name ms ++ map fst seen);
                   [apply Add_app|]. split; assumption.
              ** simpl. rewrite <- app_assoc. reflexivity.
      * split; [discriminate|]. intros (ms & H1 & H2 & _). destruct ms as [|m' ms]; [discriminate|].
        inversion H1; subst. inversion H2; subst. apply mem_In in H3. congruence.
Qed.
Lemma collect_nil known items out :
  collect known [] items = Some out <->
  exists ms, items = map NMeta ms /\ Forall (fun m => In (meta_name m) known) ms /\
    NoDup (map meta_name ms) /\ out = rev (map entry ms).
Proof.
  rewrite collect_some by constructor. split; intros (ms & H1 & H2 & H3 & H4); exists ms; repeat split; auto;
    simpl in *; rewrite app_nil_r in *; assumption.
Qed.
Lemma map_entry_fst ms : map fst (map entry ms) = map meta_name ms.
Proof. rewrite map_map. reflexivity. Qed.
Lemma assoc_entries n ms m : NoDup (map meta_name ms) ->
  assoc n (rev (map entry ms)) = Some m <-> In m ms /\ meta_name m = n.
Proof.
  intros D.
  assert (D' : NoDup (map fst (rev (map entry ms)))).
  { rewrite map_rev, map_entry_fst. apply NoDup_rev. exact D. }
  split.
  - intros A. apply assoc_In in A. apply in_rev in A. apply in_map_iff in A.
    destruct A as (x & E & I). inversion E; subst. split; [exact I|reflexivity].
  - intros [I <-]. apply assoc_NoDup; [exact D'|]. apply -> in_rev. apply in_map_iff. exists m.
    split; [reflexivity|exact I].
Qed.

(** ** Order *)
Inductive msim : smeta -> smeta -> Prop :=
| ms_refl : forall m, msim m m
| ms_list : forall p d d' ts ts', ~ In (path_name p) ordered -> shuffled ts ts' ->
    msim (SList p d ts) (SList p d' ts').
Inductive isim : nmeta -> nmeta -> Prop :=
| is_lit : forall s, isim (NLit s) (NLit s)
| is_meta : forall m m', msim m m' -> isim (NMeta m) (NMeta m').
Definition isims (l l' : list nmeta) : Prop := exists k, Forall2 isim l k /\ Permutation k l'.
Lemma msim_name m m' : msim m m' -> meta_name m = meta_name m'.
Proof. destruct 1; reflexivity. Qed.
Lemma isim_refl i : isim i i.
Proof. destruct i; constructor. constructor. Qed.

Lemma parse_nested_list n d ts : d <> DNone ->
  parse_nested [TIdent n; TGroup d ts]
  = if segment_ok n then Some (NMeta (SList (mk_path false [n]) d ts)) else None.
Proof.
  intros D. unfold parse_nested, parse_meta. simpl.
  destruct (segment_ok n); [|reflexivity]. simpl. destruct d; try reflexivity. contradiction.
Qed.
Scheme shuffled_mind := Minimality for shuffled Sort Prop
  with shuffled_each_mind := Minimality for shuffled_each Sort Prop.

Lemma shuffled_each_items cs ds : shuffled_each cs ds ->
  orel (Forall2 isim) (all_some parse_nested cs) (all_some parse_nested ds).
Proof.
  induction 1 as [|c cs ds S IH|n d d' ts ts' cs ds N D D' S S' IH].
  - simpl. constructor.
  - rewrite !all_some_cons. destruct (parse_nested c); [|exact I].
    destruct (all_some parse_nested cs), (all_some parse_nested ds); simpl in *; auto.
    constructor; [apply isim_refl|exact IH].
  - rewrite !all_some_cons, !parse_nested_list by assumption. destruct (segment_ok n); [|exact I].
    destruct (all_some parse_nested cs), (all_some parse_nested ds); simpl in *; auto.
    constructor; [|exact IH]. constructor. constructor; assumption.
Qed.
Lemma shuffled_items ts ts' : shuffled ts ts' ->
  orel isims (parse_meta_list ts) (parse_meta_list ts').
Proof.
  destruct 1 as [cs ds cs' ts ts' A E P A'].
  rewrite (arguments_list _ _ A), (arguments_list _ _ A').
  apply shuffled_each_items in E. pose proof (all_some_perm parse_nested _ _ P) as Q.
  destruct (all_some parse_nested cs), (all_some parse_nested ds), (all_some parse_nested cs');
    simpl in *; try contradiction; auto. exists l0. split; assumption.
Qed.

Lemma isims_literals l l' : isims l l' -> Permutation (literals l) (literals l').
Proof.
  intros (k & F & P). eapply perm_trans with (literals k).
  - clear P. induction F as [|i j l k I F IH]; [constructor|].
    destruct I; simpl; auto.
  - clear F. unfold literals. apply Permutation_flat_map. exact P.
Qed.
Lemma isims_non_literals l l' : isims l l' -> isims (non_literals l) (non_literals l').
Proof.
  intros (k & F & P). exists (non_literals k). split.
  - clear P. induction F as [|i j l k I F IH]; [constructor|].
    destruct I; simpl; auto. constructor; [constructor; assumption|exact IH].
  - clear F. unfold non_literals. induction P as [|x u v P IH|x y u|u v w P IH P' IH'].
    + constructor.
    + simpl. destruct x; auto.
    + simpl. destruct x, y; auto. constructor.
    + eapply perm_trans; eassumption.
Qed.

(** What the loop has stored, related. *)
Definition ssim (s s' : list (string * smeta)) : Prop :=
  (forall n, orel msim (assoc n s) (assoc n s')) /\
  (forall n m, assoc n s = Some m -> meta_name m = n).
Lemma Forall2_isim_metas ms l : Forall2 isim (map NMeta ms) l ->
  exists ms', l = map NMeta ms' /\ Forall2 msim ms ms'.
Proof.
  revert l. induction ms as [|m ms IH]; intros l F; inversion F; subst.
  - exists []. split; [reflexivity|constructor].
  - inversion H1; subst. destruct (IH _ H3) as (ms' & -> & F'). exists (m' :: ms').
    split; [reflexivity|]. constructor; assumption.
Qed.
Lemma Forall2_isim_metas_r ms l : Forall2 isim l (map NMeta ms) ->
  exists ms', l = map NMeta ms' /\ Forall2 msim ms' ms.
Proof.
  revert l. induction ms as [|m ms IH]; intros l F; inversion F; subst.
  - exists []. split; [reflexivity|constructor].
  - inversion H2; subst. destruct (IH _ H3) as (ms' & -> & F'). exists (m0 :: ms').
    split; [reflexivity|]. constructor; assumption.
Qed.
Lemma msims_names ms ms' : Forall2 msim ms ms' -> map meta_name ms = map meta_name ms'.
Proof. induction 1; simpl; [reflexivity|]. rewrite (msim_name _ _ H), IHForall2. reflexivity. Qed.
Lemma Forall_names (known : list string) ms :
  Forall (fun m => In (meta_name m) known) ms <-> Forall (fun n => In n known) (map meta_name ms).
Proof. rewrite Forall_map. reflexivity. Qed.

Lemma collect_sim known l l' : isims l l' ->
  orel ssim (collect known [] l) (collect known [] l').
Proof.
  intros (k & F & P).
  assert (K : forall ms ms', l = map NMeta ms -> l' = map NMeta ms' ->
             exists ks, Forall2 msim ms ks /\ Permutation ks ms').
  { intros ms ms' -> ->. apply Forall2_isim_metas in F. destruct F as (ks & -> & F). exists ks.
    split; [exact F|]. apply Permutation_map_inv in P. destruct P as (q & E & P).
    assert (INJ : forall a b : list smeta, map NMeta a = map NMeta b -> a = b).
    { induction a as [|x a IH]; destruct b; simpl; intros Q; try discriminate; [reflexivity|].
      inversion Q; subst. f_equal. apply IH. assumption. }
    apply INJ in E. subst. symmetry. exact P. }
  destruct (collect known [] l) as [s|] eqn:C; destruct (collect known [] l') as [s'|] eqn:C'; simpl; auto.
  - apply collect_nil in C. destruct C as (ms & E1 & K1 & D1 & ->).
    apply collect_nil in C'. destruct C' as (ms' & E2 & K2 & D2 & ->).
    destruct (K _ _ E1 E2) as (ks & F' & P'). split.
    + intros n. destruct (assoc n (rev (map entry ms))) as [m|] eqn:A.
      * apply assoc_entries in A; [|exact D1]. destruct A as [I E].
        assert (X : exists m', In m' ks /\ msim m m').
        { clear -F' I. induction F' as [|x y ms ks S F' IH]; [destruct I|].
          destruct I as [<-|I]; [exists y; split; [left; reflexivity|exact S]|].
          destruct (IH I) as (z & H1 & H2). exists z; split; [right|]; assumption. }
        destruct X as (m' & I' & S).
        assert (A' : assoc n (rev (map entry ms')) = Some m').
        { apply assoc_entries; [exact D2|]. split; [eapply Permutation_in; eassumption|].
          rewrite <- (msim_name _ _ S). exact E. }
        rewrite A'. exact S.
      * destruct (assoc n (rev (map entry ms'))) as [m'|] eqn:A'; [|exact I].
        apply assoc_entries in A'; [|exact D2]. destruct A' as [I E].
        apply assoc_none in A. exfalso. apply A. rewrite map_rev, map_entry_fst.
        apply -> in_rev. rewrite (msims_names _ _ F'). apply in_map_iff. exists m'. split; [exact E|].
        eapply Permutation_in; [symmetry; exact P'|exact I].
    + intros n m A. apply assoc_entries in A; [|exact D1]. apply A.
  - apply collect_nil in C. destruct C as (ms & E1 & K1 & D1 & _). subst l.
    apply Forall2_isim_metas in F. destruct F as (ks & -> & F).
    symmetry in P. apply Permutation_map_inv in P. destruct P as (q & E & P). subst l'.
    assert (Q : exists o, collect known [] (map NMeta q) = Some o).
    { eexists. apply collect_nil. exists q. split; [reflexivity|].
      apply Forall_names in K1. rewrite (msims_names _ _ F) in K1, D1.
      assert (PN : Permutation (map meta_name ks) (map meta_name q)) by (apply Permutation_map; exact P).
      split; [|split; [|reflexivity]].
      - apply Forall_names. eapply Permutation_Forall; eassumption.
      - eapply Permutation_NoDup; eassumption. }
    destruct Q as (o & Q). congruence.
  - apply collect_nil in C'. destruct C' as (ms & E1 & K1 & D1 & _). subst l'.
    apply Permutation_map_inv in P. destruct P as (q & E & P). subst k.
    apply Forall2_isim_metas_r in F. destruct F as (ks & -> & F).
    assert (Q : exists o, collect known [] (map NMeta ks) = Some o).
    { eexists. apply collect_nil. exists ks. split; [reflexivity|].
      apply Forall_names in K1.
      assert (PN : Permutation (map meta_name ms) (map meta_name ks)).
      { rewrite (msims_names _ _ F). apply Permutation_map. exact P. }
      split; [|split; [|reflexivity]].
      - apply Forall_names. eapply Permutation_Forall; eassumption.
      - eapply Permutation_NoDup; eassumption. }
    destruct Q as (o & Q). congruence.
Qed.

(** Readers that do not see the order. *)
Definition blind {A} (f : smeta -> option A) : Prop := forall m m', msim m m' -> f m = f m'.
Definition blind_list {A} (f : list nmeta -> option A) : Prop := forall l l', isims l l' -> f l = f l'.
Definition blind_set {A} (f : A -> list string -> option A) : Prop :=
  forall a ls ls', Permutation ls ls' -> f a ls = f a ls'.

Lemma nesting_blind {A} kw fl fv (st : A -> list string -> option A) :
  blind_list fl -> blind_set st -> blind (nesting kw fl fv st).
Proof.
  intros BL BS m m' S. destruct S as [m|p d d' ts ts' N S]; [reflexivity|].
  simpl. unfold extract_literals. apply shuffled_items in S.
  destruct (parse_meta_list ts) as [l|], (parse_meta_list ts') as [l'|]; simpl in *; try contradiction; auto.
  rewrite (BL _ _ (isims_non_literals _ _ S)). destruct (fl (non_literals l')) as [a|]; [|reflexivity]. simpl.
  pose proof (isims_literals _ _ S) as P.
  destruct (literals l) as [|x r] eqn:E.
  - apply Permutation_nil in P. rewrite P. reflexivity.
  - destruct (literals l') as [|x' r'] eqn:E'.
    + symmetry in P. apply Permutation_nil in P. discriminate.
    + apply BS. exact P.
Qed.
Lemma none_blind {A} : blind_set (fun (_ : A) _ => None).
Proof. intros a ls ls' P. reflexivity. Qed.
Lemma literal_name_perm ls ls' : Permutation ls ls' -> literal_name ls = literal_name ls'.
Proof.
  intros P. destruct ls as [|x [|y r]].
  - apply Permutation_nil in P. subst. reflexivity.
  - apply Permutation_length_1_inv in P. subst. reflexivity.
  - destruct ls' as [|x' [|y' r']]; try reflexivity.
    + symmetry in P. apply Permutation_length_1_inv in P. discriminate.
Qed.
Lemma collect_blind {A} known (f : list (string * smeta) -> option A) :
  (forall s s', ssim s s' -> f s = f s') ->
  blind_list (fun l => get? seen := collect known [] l in f seen).
Proof.
  intros H l l' S. apply (collect_sim known) in S.
  destruct (collect known [] l), (collect known [] l'); simpl in *; try contradiction; auto.
Qed.
Lemma opt_arg_blind {A} n (f : smeta -> option A) s s' :
  blind f -> ssim s s' -> opt_arg s n f = opt_arg s' n f.
Proof.
  intros B [S _]. unfold opt_arg. specialize (S n).
  destruct (assoc n s), (assoc n s'); simpl in *; try contradiction; auto. rewrite (B _ _ S). reflexivity.
Qed.
Lemma opt_arg_ordered {A} n (f : smeta -> option A) s s' :
  In n ordered -> ssim s s' -> opt_arg s n f = opt_arg s' n f.
Proof.
  intros O [S N]. unfold opt_arg. specialize (S n).
  destruct (assoc n s) as [m|] eqn:X, (assoc n s') as [m'|] eqn:Y; simpl in *; try contradiction; auto.
  apply N in X. destruct S as [m|p d d' ts ts' M S]; [reflexivity|]. exfalso. apply M.
  change (path_name p) with (meta_name (SList p d ts)). rewrite X. exact O.
Qed.
Lemma flag_blind n s s' : ssim s s' -> flag s n = flag s' n.
Proof.
  intros [S _]. unfold flag. specialize (S n).
  destruct (assoc n s), (assoc n s'); simpl in *; try contradiction; auto. destruct S; reflexivity.
Qed.

Lemma value_blind : blind_list value_from_list.
Proof. apply collect_blind. intros. apply flag_blind. assumption. Qed.
Lemma bool_arg_blind : blind bool_arg.
Proof.
  intros m m' S. unfold bool_arg. f_equal. revert m m' S.
  change (blind (nesting (Some false) value_from_list no_value (fun _ _ => None))).
  apply nesting_blind; [exact value_blind|apply none_blind].
Qed.
Lemma string_arg_blind : blind string_arg.
Proof.
  apply nesting_blind.
  - intros l l' S. rewrite (value_blind _ _ S). reflexivity.
  - intros a ls ls' P. destruct ls as [|x [|y r]].
    + apply Permutation_nil in P. subst. reflexivity.
    + apply Permutation_length_1_inv in P. subst. reflexivity.
    + destruct ls' as [|x' [|y' r']]; try reflexivity.
      symmetry in P. apply Permutation_length_1_inv in P. discriminate.
Qed.
Lemma path_from_meta_blind : blind path_from_meta.
Proof. intros m m' S. destruct S; reflexivity. Qed.
Lemma bool_from_meta_blind : blind bool_from_meta.
Proof. intros m m' S. destruct S; reflexivity. Qed.
Lemma pub_arg_blind : blind pub_arg.
Proof.
  apply nesting_blind; [|apply none_blind].
  intros l l' (k & F & P). 
  destruct l as [|i [|j l]].
  - inversion F; subst. apply Permutation_nil in P. subst. reflexivity.
  - inversion F; subst. inversion H3; subst. apply Permutation_length_1_inv in P. subst.
    inversion H1; subst; [reflexivity|]. simpl. rewrite (msim_name _ _ H), (path_from_meta_blind _ _ H).
    destruct H; reflexivity.
  - pose proof (Permutation_length P) as L. inversion F; subst. inversion H3; subst. simpl in L.
    destruct l' as [|x1 [|y1 r1]]; try discriminate. destruct i, x1; reflexivity.
Qed.

Ltac blinds S :=
  repeat match goal with
  | |- ?a = ?a => reflexivity
  | |- obind (flag ?s ?n) ?k = _ => rewrite (flag_blind n _ _ S)
  | |- obind (opt_arg ?s ?n ?f) ?k = _ =>
      first [ rewrite (opt_arg_ordered n f _ _ ltac:(simpl; tauto) S)
            | rewrite (opt_arg_blind n f _ _ ltac:(auto with blind) S) ]
  | |- obind ?e ?k = obind ?e ?k' => destruct e; simpl; [|reflexivity]
  end.
Create HintDb blind.
#[export] Hint Resolve bool_arg_blind string_arg_blind pub_arg_blind bool_from_meta_blind : blind.

Lemma helper_of_blind s s' : ssim s s' -> helper_of s = helper_of s'.
Proof. intros S. unfold helper_of. blinds S. Qed.
Lemma helper_arg_blind : blind helper_arg.
Proof.
  apply nesting_blind.
  - apply collect_blind. exact helper_of_blind.
  - intros a ls ls' P. rewrite (literal_name_perm _ _ P). reflexivity.
Qed.
Lemma accessor_arg_blind : blind accessor_arg.
Proof.
  apply nesting_blind.
  - apply collect_blind. intros s s' S. rewrite (helper_of_blind _ _ S). blinds S.
  - intros a ls ls' P. rewrite (literal_name_perm _ _ P). reflexivity.
Qed.
Lemma setter_arg_blind : blind setter_arg.
Proof.
  apply nesting_blind.
  - apply collect_blind. intros s s' S. rewrite (helper_of_blind _ _ S). blinds S.
  - intros a ls ls' P. rewrite (literal_name_perm _ _ P). reflexivity.
Qed.
Lemma builder_arg_blind b : blind (builder_arg b).
Proof.
  apply nesting_blind.
  - apply collect_blind. intros s s' S. rewrite (helper_of_blind _ _ S). blinds S.
  - intros a ls ls' P. rewrite (literal_name_perm _ _ P). reflexivity.
Qed.
Lemma fallible_arg_blind : blind fallible_arg.
Proof.
  apply nesting_blind; [|apply none_blind]. apply collect_blind. intros s s' S. blinds S.
Qed.
Lemma serde_arg_blind : blind serde_arg.
Proof.
  apply nesting_blind.
  - apply collect_blind. intros s s' S. blinds S.
  - intros a ls ls' P. rewrite (literal_name_perm _ _ P). reflexivity.
Qed.
#[export] Hint Resolve helper_arg_blind accessor_arg_blind setter_arg_blind builder_arg_blind
  fallible_arg_blind serde_arg_blind : blind.
Lemma sargs_of_blind s s' : ssim s s' -> sargs_of s = sargs_of s'.
Proof. intros S. unfold sargs_of. blinds S. Qed.
Lemma field_of_blind i v t a s s' : ssim s s' -> field_of i v t a s = field_of i v t a s'.
Proof. intros S. unfold field_of. blinds S. Qed.
