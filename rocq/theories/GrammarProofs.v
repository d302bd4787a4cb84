(** Exactly the grammatical arguments are accepted. *)
From Coq Require Import List Bool String Ascii Lia.
From Verif Require Import ArgsModel ArgsSpec TokenSpec TokenModel TokenProofs ParseInput ParseSpec ParseModel ParseFacts
  ParseProofs ParseForms ParseDefault ParseRepeat ParseTop GrammarSpec.
Import ListNotations.
Open Scope string_scope.
Open Scope list_scope.

(** What follows the name of an item. *)
Definition rest (m : smeta) : list tok :=
  match m with SPath _ => [] | SList _ d ts => [TGroup d ts] | SValue _ v => TPunct "=" :: v end.
Definition exact {A} (f : smeta -> option A) (fm : form) : Prop :=
  forall m, meta_ok m -> (f m <> None <-> fits fm (rest m)).
Lemma some_not_none {A} (o : option A) a : o = Some a -> o <> None.
Proof. congruence. Qed.
Lemma not_none {A} (o : option A) : o <> None -> exists a, o = Some a.
Proof. destruct o; [eauto|contradiction]. Qed.

(** ** Literals *)
Lemma lit_string c s t : parse_lit c = Some s -> lit_str s = Some t -> c = [TLit s].
Proof.
  intros P L. unfold parse_lit in P. destruct c as [|[a|a|a|d g] [|[b|b|b|d' g'] [|x c]]]; try discriminate.
  - destruct (lit_bool a) eqn:B; [|discriminate]. injection P as <-. unfold lit_bool in B.
    destruct (String.eqb_spec a "true"); [subst; discriminate|].
    destruct (String.eqb_spec a "false"); [subst; discriminate|discriminate].
  - destruct (String.eqb_spec a "-"); [|discriminate]. destruct (is_number b); [|discriminate].
    injection P as <-. subst a. unfold show in L. simpl in L. discriminate.
  - injection P as <-. reflexivity.
Qed.
Lemma lit_str_quote s t : lit_str s = Some t -> exists r, s = String """" r /\ t = chop r.
Proof.
  destruct s as [|c r]; simpl; [discriminate|]. destruct (Ascii.eqb_spec c quote) as [->|]; [|discriminate].
  intros E. injection E as <-. exists r. auto.
Qed.
Lemma chop_back r t : chop r = t -> t <> "" -> exists q, r = (t ++ String q "")%string.
Proof.
  intros <-. induction r as [|c [|d r] IH]; intros N; [destruct (N eq_refl)|destruct (N eq_refl)|].
  change (chop (String c (String d r))) with (String c (chop (String d r))).
  destruct r as [|e r].
  - exists d. reflexivity.
  - destruct IH as (q & E); [discriminate|]. exists q. simpl. f_equal. exact E.
Qed.
Lemma chop_last t q : chop (t ++ String q "") = t.
Proof.
  induction t as [|c t IH]; [reflexivity|]. simpl. rewrite IH. destruct t; reflexivity.
Qed.
Lemma string_lit c s t : parse_lit c = Some s -> lit_str s = Some t -> a_string c.
Proof.
  intros P L. rewrite (lit_string c s t P L). destruct (lit_str_quote s t L) as (r & -> & _). exists r. reflexivity.
Qed.
Lemma string_lit_for c s t : parse_lit c = Some s -> lit_str s = Some t -> t <> "" -> string_for t c.
Proof.
  intros P L N. rewrite (lit_string c s t P L). destruct (lit_str_quote s t L) as (r & -> & E).
  destruct (chop_back r t (eq_sym E) N) as (q & ->). exists q. reflexivity.
Qed.
Lemma string_for_lit t c : string_for t c -> exists s, parse_lit c = Some s /\ lit_str s = Some t /\ lit_bool s = None.
Proof.
  intros (q & ->). exists (String """" (t ++ String q "")). split; [reflexivity|]. split; [|reflexivity].
  simpl. rewrite chop_last. reflexivity.
Qed.
Lemma a_string_lit c : a_string c -> exists s t, c = [TLit s] /\ lit_str s = Some t.
Proof. intros (s & ->). exists (String """" s), (chop s). split; reflexivity. Qed.

(** ** Arguments and items *)
Lemma arguments_fun cs ds ts : arguments cs ts -> arguments ds ts -> cs = ds.
Proof. intros A B. rewrite <- (arguments_terminated _ _ A). apply (arguments_terminated _ _ B). Qed.
Lemma nested_literal c s : parse_nested c = Some (NLit s) -> parse_lit c = Some s.
Proof.
  unfold parse_nested. destruct (parse_lit c); [intros E; injection E as <-; reflexivity|].
  destruct (parse_meta c); discriminate.
Qed.
Lemma fits_shape fm r : fits fm r ->
  r = [] \/ (exists d ts, d <> DNone /\ r = [TGroup d ts]) \/ exists v, v <> [] /\ r = TPunct "=" :: v.
Proof.
  intros F. inversion F; subst; try (left; reflexivity); try (right; left; do 2 eexists; split; [|reflexivity]; assumption).
  - right. right. eexists. split; [|reflexivity]. destruct H as (t & _ & [-> |[-> |(q & ->)]]); discriminate.
  - right. right. eexists. split; [|reflexivity]. destruct H as [(q & ->)|(q & ->)]; discriminate.
Qed.
Definition good_name (n : string) : bool := segment_ok n && no_colon n.
Lemma row_item n c r fm : good_name n = true -> argument_for n c r -> fits fm r ->
  exists m, parse_nested c = Some (NMeta m) /\ meta_name m = n /\ meta_ok m /\ rest m = r.
Proof.
  intros G A F. unfold good_name in G. apply andb_true_iff in G. destruct G as [S C].
  assert (K : forall m, meta_ok m -> meta_toks m = c -> parse_nested c = Some (NMeta m)).
  { intros m M <-. apply parse_nested_back, M. }
  assert (P : forall ab, p_segs (mk_path ab [n]) <> [] /\ Forall (fun s => segment_ok s = true) (p_segs (mk_path ab [n]))).
  { intros ab. split; [discriminate|]. constructor; [exact S|constructor]. }
  destruct (fits_shape fm r F) as [-> |[(d & ts & D & ->)|(v & V & ->)]].
  - assert (H : exists ab, c = path_toks (mk_path ab [n])) by (inversion A; subst; [exists false|exists true]; reflexivity).
    destruct H as (ab & E). destruct (P ab). exists (SPath (mk_path ab [n])).
    assert (M : meta_ok (SPath (mk_path ab [n]))) by (repeat split; assumption).
    split; [apply K; auto|]. auto.
  - assert (H : exists ab, c = path_toks (mk_path ab [n]) ++ [TGroup d ts]) by (inversion A; subst; [exists false|exists true]; reflexivity).
    destruct H as (ab & E). destruct (P ab). exists (SList (mk_path ab [n]) d ts).
    assert (M : meta_ok (SList (mk_path ab [n]) d ts)) by (repeat split; assumption).
    split; [apply K; auto|]. auto.
  - assert (H : exists ab, c = path_toks (mk_path ab [n]) ++ TPunct "=" :: v) by (inversion A; subst; [exists false|exists true]; reflexivity).
    destruct H as (ab & E). destruct (P ab). exists (SValue (mk_path ab [n]) v).
    assert (M : meta_ok (SValue (mk_path ab [n]) v)) by (repeat split; assumption).
    split; [apply K; auto|]. auto.
Qed.
Lemma item_argument c m : parse_nested c = Some (NMeta m) -> no_colon (meta_name m) = true ->
  argument_for (meta_name m) c (rest m) /\ meta_ok m.
Proof.
  intros P C. destruct (parse_nested_inv _ _ P) as [T M]. split; [|exact M]. rewrite T.
  apply (meta_argument m (meta_name m) M eq_refl C).
Qed.

(** ** Lists of options *)
Definition metas (items : list nmeta) : list smeta :=
  flat_map (fun i => match i with NMeta m => [m] | NLit _ => [] end) items.
Lemma non_literals_metas items : non_literals items = map NMeta (metas items).
Proof. induction items as [|[s|m] l IH]; simpl; [reflexivity|exact IH|]. f_equal. exact IH. Qed.
Lemma metas_In m items : In m (metas items) <-> In (NMeta m) items.
Proof.
  unfold metas. rewrite in_flat_map. split.
  - intros ([s|m'] & I & J); [destruct J|]. destruct J as [<-|[]]. exact I.
  - intros I. exists (NMeta m). split; [exact I|left; reflexivity].
Qed.
Lemma literals_In s items : In s (literals items) <-> In (NLit s) items.
Proof.
  unfold literals. rewrite in_flat_map. split.
  - intros ([s'|m'] & I & J); [|destruct J]. destruct J as [<-|[]]. exact I.
  - intros I. exists (NLit s). split; [exact I|left; reflexivity].
Qed.
Lemma all_some_total {A B} (f : A -> option B) l : (forall a, In a l -> exists b, f a = Some b) ->
  exists bs, all_some f l = Some bs.
Proof.
  induction l as [|a l IH]; intros H; [exists []; reflexivity|].
  destruct (H a (or_introl eq_refl)) as (b & E). destruct IH as (bs & E'); [intros x I; apply H; right; exact I|].
  exists (b :: bs). rewrite all_some_cons, E, E'. reflexivity.
Qed.
Lemma twice_cons {A} (P : A -> Prop) x l : twice P l -> twice P (x :: l).
Proof. intros [l1 a l2 b l3 X Y]. apply (twice_at P (x :: l1)); assumption. Qed.
Lemma twice_head {A} (P : A -> Prop) x y l : P x -> In y l -> P y -> twice P (x :: l).
Proof. intros X I Y. apply in_split in I. destruct I as (l2 & l3 & ->). apply (twice_at P []); assumption. Qed.
Lemma names_nodup cs items : all_some parse_nested cs = Some items ->
  (forall c m, In c cs -> parse_nested c = Some (NMeta m) -> for_name (meta_name m) c) ->
  (forall n, ~ twice (for_name n) cs) -> NoDup (map meta_name (metas items)).
Proof.
  revert items. induction cs as [|c cs IH]; intros items AS F T.
  - injection AS as <-. constructor.
  - rewrite all_some_cons in AS. destruct (parse_nested c) as [i|] eqn:P; [|discriminate].
    destruct (all_some parse_nested cs) as [is|] eqn:E; [|discriminate]. injection AS as <-.
    assert (N : NoDup (map meta_name (metas is))).
    { apply IH; [reflexivity|intros d m I; apply F; right; exact I|]. intros n X. apply (T n), twice_cons, X. }
    destruct i as [s|m]; simpl; [exact N|]. constructor; [|exact N]. intros I.
    apply in_map_iff in I. destruct I as (m' & Q & I). apply metas_In in I.
    destruct (all_some_In_r _ _ _ _ E I) as (d & J & P'). apply (T (meta_name m)).
    apply twice_head with d; [apply F; [left; reflexivity|exact P]|exact J|]. rewrite <- Q. apply F; [right; exact J|exact P'].
Qed.
Lemma one_string cs items : all_some parse_nested cs = Some items ->
  (forall c s, In c cs -> parse_nested c = Some (NLit s) -> a_string c) ->
  ~ twice a_string cs -> List.length (literals items) <= 1.
Proof.
  revert items. induction cs as [|c cs IH]; intros items AS F T.
  - injection AS as <-. simpl. lia.
  - rewrite all_some_cons in AS. destruct (parse_nested c) as [i|] eqn:P; [|discriminate].
    destruct (all_some parse_nested cs) as [is|] eqn:E; [|discriminate]. injection AS as <-.
    assert (N : List.length (literals is) <= 1).
    { apply IH; [reflexivity|intros d m I; apply F; right; exact I|]. intros X. apply T, twice_cons, X. }
    destruct i as [s|m]; simpl; [|exact N]. destruct (literals is) as [|s' l] eqn:L; [simpl; lia|exfalso].
    assert (I : In s' (literals is)) by (rewrite L; left; reflexivity). apply literals_In in I.
    destruct (all_some_In_r _ _ _ _ E I) as (d & J & P'). apply T.
    apply twice_head with d; [apply (F c s); [left; reflexivity|exact P]|exact J|]. apply (F d s'); [right; exact J|exact P'].
Qed.

Definition on_seen (n : string) (seen : list (string * smeta)) : Prop :=
  exists m, assoc n seen = Some m /\ ~ switched_off (rest m).
Definition broken_seen (seen : list (string * smeta)) (x : rule) : Prop :=
  match x with
  | Given a b => assoc a seen <> None /\ assoc b seen <> None
  | On a b => on_seen a seen /\ on_seen b seen
  end.
Definition agrees (l : list (string * form)) (rules : list rule) (seen : list (string * smeta)) : Prop :=
  (forall n m, assoc n seen = Some m -> exists fm, assoc n l = Some fm /\ fits fm (rest m)) /\
  (forall x, In x rules -> ~ broken_seen seen x).
Definition proper (known : list string) (seen : list (string * smeta)) : Prop :=
  forall n m, assoc n seen = Some m -> meta_ok m /\ In n known.
Definition exact_seen {A} known l rules (k : list (string * smeta) -> option A) : Prop :=
  forall seen, proper known seen -> (k seen <> None <-> agrees l rules seen).
(** What the tables must be like. *)
Fixpoint distinct (l : list string) : bool :=
  match l with [] => true | x :: r => negb (mem x r) && distinct r end.
Definition rule_names (x : rule) : list string := match x with Given a b | On a b => [a; b] end.
Definition tidy (known : list string) (l : list (string * form)) (rules : list rule) : bool :=
  forallb good_name known && forallb (fun x => mem (fst x) known) l && distinct (map fst l)
  && forallb good_name (flat_map rule_names rules).
Lemma mem_true s l : mem s l = true <-> In s l.
Proof.
  destruct (mem s l) eqn:E; split; intros H; auto; [|discriminate|].
  - destruct (in_dec string_dec s l) as [I|I]; [exact I|]. apply mem_false in I. congruence.
  - apply mem_false in E. contradiction.
Qed.
Lemma distinct_nodup l : distinct l = true -> NoDup l.
Proof.
  induction l as [|x l IH]; simpl; [constructor|]. rewrite andb_true_iff, negb_true_iff, mem_false. intros [N D].
  constructor; auto.
Qed.
Lemma assoc_In {A} n (l : list (string * A)) a : NoDup (map fst l) -> assoc n l = Some a <-> In (n, a) l.
Proof.
  induction l as [|[k x] l IH]; intros D; simpl; [split; [discriminate|intros []]|].
  inversion D as [|y r N D']; subst. specialize (IH D'). destruct (String.eqb_spec n k) as [->|E].
  - split; [intros Q; injection Q as <-; left; reflexivity|]. intros [Q|Q]; [injection Q as <-; reflexivity|].
    exfalso. apply N. apply (in_map fst) in Q. exact Q.
  - rewrite IH. split; [auto|]. intros [Q|Q]; [injection Q as Q1 Q2; congruence|exact Q].
Qed.

Section core.
  Context {A : Type} (known : list string) (l : list (string * form)) (rules : list rule)
    (k : list (string * smeta) -> option A).
  Hypothesis T : tidy known l rules = true.
  Lemma known_good n : In n known -> segment_ok n = true /\ no_colon n = true.
  Proof.
    clear k. unfold tidy in T. rewrite !andb_true_iff in T. destruct T as (((G & _) & _) & _).
    rewrite forallb_forall in G. intros I. apply andb_true_iff. apply (G n I).
  Qed.
  Lemma table_known n fm : In (n, fm) l -> In n known.
  Proof.
    clear k. unfold tidy in T. rewrite !andb_true_iff in T. destruct T as (((_ & G) & _) & _).
    rewrite forallb_forall in G. intros I. apply mem_true. apply (G _ I).
  Qed.
  Lemma table_nodup : NoDup (map fst l).
  Proof. clear k. unfold tidy in T. rewrite !andb_true_iff in T. apply distinct_nodup. tauto. Qed.
  Lemma rule_good x n : In x rules -> In n (rule_names x) -> segment_ok n = true.
  Proof.
    clear k. unfold tidy in T. rewrite !andb_true_iff in T. destruct T as (_ & G). rewrite forallb_forall in G.
    intros I J. assert (Q : good_name n = true) by (apply G, in_flat_map; eauto).
    unfold good_name in Q. rewrite andb_true_iff in Q. tauto.
  Qed.

  Lemma linked cs items seen : all_some parse_nested cs = Some items ->
    collect known [] (non_literals items) = Some seen ->
    proper known seen /\
    (forall n m, assoc n seen = Some m -> exists c, In c cs /\ parse_nested c = Some (NMeta m) /\ argument_for n c (rest m)) /\
    (forall c m, In c cs -> parse_nested c = Some (NMeta m) -> In (meta_name m) known /\ assoc (meta_name m) seen = Some m) /\
    (forall n c r, segment_ok n = true -> In c cs -> argument_for n c r -> exists m, assoc n seen = Some m /\ rest m = r).
  Proof.
    intros AS C. apply collect_nil in C. destruct C as (ms & E & F & D & ->). rewrite Forall_forall in F.
    rewrite non_literals_metas in E.
    assert (M : metas items = ms).
    { apply (f_equal metas) in E. revert E. clear. assert (H : forall q, metas (map NMeta q) = q).
      { induction q as [|m q IH]; simpl; [reflexivity|]. f_equal. exact IH. }
      rewrite !H. auto. }
    clear E. subst ms.
    assert (H1 : forall n m, assoc n (rev (map entry (metas items))) = Some m ->
      exists c, In c cs /\ parse_nested c = Some (NMeta m) /\ argument_for n c (rest m) /\ meta_ok m /\ In n known).
    { intros n m Q. apply assoc_entries in Q; [|exact D]. destruct Q as [I <-]. pose proof (F m I) as K.
      apply metas_In in I. destruct (all_some_In_r _ _ _ _ AS I) as (c & J & P). exists c. split; [exact J|]. split; [exact P|].
      destruct (item_argument c m P (proj2 (known_good _ K))) as [X Y]. auto. }
    assert (H2 : forall c m, In c cs -> parse_nested c = Some (NMeta m) ->
      In (meta_name m) known /\ assoc (meta_name m) (rev (map entry (metas items))) = Some m).
    { intros c m J P. destruct (all_some_In _ _ _ _ AS J) as (i & I & P'). rewrite P in P'. injection P' as <-.
      apply metas_In in I. split; [apply F, I|]. apply assoc_entries; auto. }
    split; [|split; [|split]].
    - intros n m Q. destruct (H1 n m Q) as (c & _ & _ & _ & X & Y). auto.
    - intros n m Q. destruct (H1 n m Q) as (c & X & Y & Z & _). eauto.
    - exact H2.
    - intros n c r S J X. destruct (all_some_In _ _ _ _ AS J) as (i & I & P). destruct i as [s|m].
      + exfalso. rewrite (name_literal n c s) in S; [discriminate|exists r; exact X|exact P].
      + destruct (H2 c m J P) as [K Q]. destruct (item_argument c m P (proj2 (known_good _ K))) as [Y _].
        destruct (argument_for_fun _ _ _ _ _ X Y) as [-> ->]. eauto.
  Qed.
  Lemma linked_broken cs items seen x : all_some parse_nested cs = Some items ->
    collect known [] (non_literals items) = Some seen -> In x rules -> broken cs x <-> broken_seen seen x.
  Proof.
    intros AS C I. destruct (linked _ _ _ AS C) as (_ & L1 & _ & L3).
    assert (G : forall n, In n (rule_names x) -> given_in n cs <-> assoc n seen <> None).
    { intros n J. pose proof (rule_good x n I J) as S. split.
      - intros (c & K & r & X). destruct (L3 n c r S K X) as (m & E & _). congruence.
      - intros N. apply not_none in N. destruct N as (m & E). destruct (L1 n m E) as (c & K & _ & X). exists c. split; [exact K|].
        exists (rest m). exact X. }
    assert (O : forall n, In n (rule_names x) -> on_in n cs <-> on_seen n seen).
    { intros n J. pose proof (rule_good x n I J) as S. split.
      - intros (c & r & K & X & Y). destruct (L3 n c r S K X) as (m & E & <-). exists m. auto.
      - intros (m & E & Y). destruct (L1 n m E) as (c & K & _ & X). exists c, (rest m). auto. }
    destruct x as [a b|a b]; simpl in *; [rewrite (G a), (G b)|rewrite (O a), (O b)]; auto; reflexivity.
  Qed.
  Hypothesis K : exact_seen known l rules k.
  Definition strung (named : bool) (ls : list string) : Prop :=
    ls = [] \/ named = true /\ exists s t, ls = [s] /\ lit_str s = Some t.
  Definition taken (named : bool) (cs : list (list tok)) : Prop :=
    (forall c, In c cs -> (named = true /\ a_string c) \/ row_of l c) /\
    ~ twice a_string cs /\ (forall n, ~ twice (for_name n) cs) /\ (forall x, In x rules -> ~ broken cs x).
  Lemma core_sound named cs items seen : all_some parse_nested cs = Some items ->
    collect known [] (non_literals items) = Some seen -> k seen <> None -> strung named (literals items) ->
    taken named cs.
  Proof.
    intros AS C N LS. pose proof (linked _ _ _ AS C) as (PR & L1 & L2 & L3).
    apply (K seen PR) in N. destruct N as [AG RU].
    assert (LIT : forall c s, In c cs -> parse_nested c = Some (NLit s) -> named = true /\ literals items = [s] /\ a_string c).
    { intros c s I P. destruct (all_some_In _ _ _ _ AS I) as (i & J & P'). rewrite P in P'. injection P' as <-.
      apply literals_In in J. destruct LS as [E|(NA & s' & t & E & L)]; rewrite E in J; [destruct J|].
      destruct J as [->|[]]. split; [exact NA|]. split; [exact E|]. apply nested_literal in P. apply (string_lit c s t P L). }
    assert (ROW : forall c m, In c cs -> parse_nested c = Some (NMeta m) -> row_of l c).
    { intros c m I P. destruct (L2 c m I P) as [KN Q]. destruct (AG _ _ Q) as (fm & F & G).
      exists (meta_name m), fm, (rest m). split; [apply assoc_In; [apply table_nodup|exact F]|]. split; [|exact G].
      apply (item_argument c m P). apply known_good, KN. }
    split; [|split; [|split]].
    - intros c I. destruct (all_some_In _ _ _ _ AS I) as (i & J & P). destruct i as [s|m].
      + left. destruct (LIT c s I P) as (X & _ & Y). auto.
      + right. apply (ROW c m I P).
    - intros TW. clear L1 L2 L3 ROW LIT. inversion TW as [l1 a l2 b l3 X Y Q]; subst cs. clear TW. destruct (a_string_lit _ X) as (s & t & -> & _). destruct (a_string_lit _ Y) as (s' & t' & -> & _).
      destruct (all_some_split _ _ _ _ _ AS) as (i1 & x & q & -> & _ & X' & AS').
      destruct (all_some_split _ _ _ _ _ AS') as (i2 & y & i3 & -> & _ & Y' & _).
      injection X' as <-. injection Y' as <-. pose proof (two_literals i1 s i2 s' i3) as B.
      destruct LS as [E|(_ & z & t2 & E & _)]; rewrite E in B; simpl in B; lia.
    - intros n TW. inversion TW as [l1 a l2 b l3 X Y Q]; subst cs. clear TW.
      destruct (all_some_split _ _ _ _ _ AS) as (i1 & x & q & -> & _ & X' & AS').
      destruct (all_some_split _ _ _ _ _ AS') as (i2 & y & i3 & -> & _ & Y' & _).
      assert (NL : forall c, In c (l1 ++ a :: l2 ++ b :: l3) -> for_name n c -> forall s, parse_nested c <> Some (NLit s)).
      { intros c I (r & Z) s P. destruct (LIT c s I P) as (_ & _ & Q). destruct (a_string_lit _ Q) as (z & t & -> & _). inversion Z. }
      assert (Ia : In a (l1 ++ a :: l2 ++ b :: l3)) by (apply in_app_iff; right; left; reflexivity).
      assert (Ib : In b (l1 ++ a :: l2 ++ b :: l3)) by (apply in_app_iff; right; right; apply in_app_iff; right; left; reflexivity).
      destruct x as [s|m1]; [destruct (NL a Ia X s X')|]. destruct y as [s|m2]; [destruct (NL b Ib Y s Y')|].
      destruct (L2 a m1 Ia X') as [K1 _]. destruct (L2 b m2 Ib Y') as [K2 _].
      assert (E1 : meta_name m1 = n).
      { destruct X as (r & X). destruct (item_argument a m1 X' (proj2 (known_good _ K1))) as [Z _].
        symmetry. apply (argument_for_fun _ _ _ _ _ X Z). }
      assert (E2 : meta_name m2 = n).
      { destruct Y as (r & Y). destruct (item_argument b m2 Y' (proj2 (known_good _ K2))) as [Z _].
        symmetry. apply (argument_for_fun _ _ _ _ _ Y Z). }
      apply collect_nil in C. destruct C as (ms & E & _ & D & _). rewrite non_literals_app in E. simpl in E.
      rewrite non_literals_app in E. simpl in E.
      assert (Q : map (fun i => match i with NMeta m => meta_name m | NLit _ => "" end)
                    (non_literals i1 ++ NMeta m1 :: non_literals i2 ++ NMeta m2 :: non_literals i3) = map meta_name ms).
      { rewrite E, map_map. reflexivity. }
      rewrite <- Q, map_app in D. simpl in D. rewrite map_app in D. simpl in D. rewrite E1, E2 in D.
      apply NoDup_remove_2 in D. apply D. apply in_app_iff. right. apply in_app_iff. right. left. reflexivity.
    - intros x I B. apply (RU x I). apply (linked_broken cs items seen x AS C I). exact B.
  Qed.
  Lemma core_complete named cs : taken named cs ->
    exists items seen, all_some parse_nested cs = Some items /\ collect known [] (non_literals items) = Some seen /\
      k seen <> None /\ strung named (literals items).
  Proof.
    intros (R & TS & TN & RU).
    assert (ROW : forall c, row_of l c -> exists n fm m, In (n, fm) l /\ parse_nested c = Some (NMeta m) /\ meta_name m = n /\ meta_ok m /\ fits fm (rest m) /\ argument_for n c (rest m)).
    { intros c (n & fm & r & I & X & F). pose proof (table_known n fm I) as KN.
      destruct (row_item n c r fm) as (m & P & E & M & <-); auto.
      { unfold good_name. apply andb_true_iff. apply known_good, KN. }
      exists n, fm, m. auto 10. }
    destruct (all_some_total parse_nested cs) as (items & AS).
    { intros c I. destruct (R c I) as [(_ & S)|S].
      - destruct (a_string_lit _ S) as (s & t & -> & _). exists (NLit s). reflexivity.
      - destruct (ROW c S) as (n & fm & m & _ & P & _). eauto. }
    assert (MET : forall c m, In c cs -> parse_nested c = Some (NMeta m) -> exists fm, In (meta_name m, fm) l /\ fits fm (rest m) /\ argument_for (meta_name m) c (rest m)).
    { intros c m I P. destruct (R c I) as [(_ & S)|S].
      - destruct (a_string_lit _ S) as (s & t & -> & _). discriminate.
      - destruct (ROW c S) as (n & fm & m' & J & P' & <- & _ & F & X). rewrite P in P'. injection P' as <-. eauto. }
    assert (LIT : forall c s, In c cs -> parse_nested c = Some (NLit s) -> named = true /\ a_string c).
    { intros c s I P. destruct (R c I) as [S|S]; [exact S|]. destruct (ROW c S) as (n & fm & m' & J & P' & _). congruence. }
    assert (D : NoDup (map meta_name (metas items))).
    { apply (names_nodup cs items AS); [|exact TN]. intros c m I P. destruct (MET c m I P) as (fm & _ & _ & X). exists (rest m). exact X. }
    assert (C : collect known [] (non_literals items) = Some (rev (map entry (metas items)))).
    { apply collect_nil. exists (metas items). split; [apply non_literals_metas|]. split; [|auto].
      apply Forall_forall. intros m I. apply metas_In in I. destruct (all_some_In_r _ _ _ _ AS I) as (c & J & P).
      destruct (MET c m J P) as (fm & X & _). apply (table_known _ _ X). }
    exists items, (rev (map entry (metas items))). split; [exact AS|]. split; [exact C|].
    pose proof (linked _ _ _ AS C) as (PR & L1 & L2 & L3). split.
    - apply (K _ PR). split.
      + intros n m E. destruct (L1 n m E) as (c & I & P & X). destruct (MET c m I P) as (fm & J & F & X').
        destruct (argument_for_fun _ _ _ _ _ X X') as [-> _]. exists fm. split; [|exact F]. apply assoc_In; [apply table_nodup|exact J].
      + intros x I B. apply (RU x I). apply (linked_broken _ _ _ x AS C I). exact B.
    - pose proof (one_string cs items AS (fun c s I P => proj2 (LIT c s I P)) TS) as L.
      destruct (literals items) as [|s [|s' ls]] eqn:E; [left; reflexivity| |simpl in L; lia].
      right. assert (I : In s (literals items)) by (rewrite E; left; reflexivity). apply literals_In in I.
      destruct (all_some_In_r _ _ _ _ AS I) as (c & J & P). destruct (LIT c s J P) as [NA S]. split; [exact NA|].
      destruct (a_string_lit _ S) as (s' & t & -> & Q). injection P as <-. eauto.
  Qed.
  Definition set_exact (named : bool) (st : A -> list string -> option A) : Prop :=
    forall a ls, ls <> [] -> (st a ls <> None <-> strung named ls).
  Lemma nesting_exact kw st bare named :
    set_exact named st -> (kw <> None <-> bare = true) ->
    exact (nesting kw (fun items => get? seen := collect known [] items in k seen) no_value st) (Options bare named l rules).
  Proof.
    intros SE B m M. destruct m as [p|p d ts|p v]; simpl.
    - rewrite B. split; [intros ->; constructor|]. intros F. inversion F. reflexivity.
    - unfold extract_literals. destruct M as (_ & _ & D). simpl in D. split.
      + destruct (parse_meta_list ts) as [items|] eqn:P; [|contradiction]. cbn [obind].
        destruct (accepted_arguments ts items P) as (cs & AR & AS).
        destruct (collect known [] (non_literals items)) as [seen|] eqn:C; [|contradiction]. cbn [obind].
        destruct (k seen) as [x|] eqn:E; [|contradiction]. cbn [obind]. intros H.
        destruct (core_sound named cs items seen AS C ltac:(congruence)) as (R & T1 & T2 & RU).
        * destruct (literals items) as [|s ls]; [left; reflexivity|]. apply SE in H; [exact H|discriminate].
        * apply fit_options with cs; assumption.
      + intros F. inversion F; subst. destruct (core_complete named cs) as (items & seen & AS & C & N & S).
        { split; [|auto]. assumption. }
        rewrite (arguments_list cs ts) by assumption. rewrite AS. cbn [obind]. rewrite C. cbn [obind].
        apply not_none in N. destruct N as (x & ->). cbn [obind].
        destruct (literals items) as [|s ls]; [discriminate|]. apply SE; [discriminate|exact S].
    - split; [contradiction|]. intros F. inversion F.
  Qed.
End core.

(** ** Cells *)
Definition cell (l : list (string * form)) (seen : list (string * smeta)) (n : string) : Prop :=
  forall m, assoc n seen = Some m -> exists fm, assoc n l = Some fm /\ fits fm (rest m).
Lemma agrees_cells known l rules seen : proper known seen ->
  (agrees l rules seen <-> Forall (cell l seen) known /\ forall x, In x rules -> ~ broken_seen seen x).
Proof.
  intros P. unfold agrees. rewrite Forall_forall. split; intros [H R]; (split; [|exact R]).
  - intros n _ m E. apply (H n m E).
  - intros n m E. apply (H n); [apply (P n m E)|exact E].
Qed.
Lemma cell_opt {A} known l seen n (f : smeta -> option A) fm : proper known seen -> exact f fm -> assoc n l = Some fm ->
  (opt_arg seen n f <> None <-> cell l seen n).
Proof.
  intros P X L. unfold opt_arg, cell. destruct (assoc n seen) as [m|] eqn:E.
  - destruct (P n m E) as [M _]. specialize (X m M). split.
    + intros H m' Q. injection Q as <-. exists fm. split; [exact L|]. apply X. destruct (f m); [discriminate|contradiction].
    + intros H. destruct (H m eq_refl) as (fm' & L' & F). rewrite L in L'. injection L' as <-. apply X in F.
      destruct (f m); [discriminate|contradiction].
  - split; [|discriminate]. intros _ m Q. discriminate.
Qed.
Lemma cell_flag l seen n : assoc n l = Some Alone -> (flag seen n <> None <-> cell l seen n).
Proof.
  intros L. unfold flag, cell. destruct (assoc n seen) as [m|] eqn:E.
  - split.
    + intros H m' Q. injection Q as <-. exists Alone. split; [exact L|]. destruct m; try contradiction. constructor.
    + intros H. destruct (H m eq_refl) as (fm' & L' & F). rewrite L in L'. injection L' as <-.
      inversion F as [Q| | | | | | | | | | | | | | | | | |]. destruct m; try discriminate.
  - split; [|discriminate]. intros _ m Q. discriminate.
Qed.
Lemma given_opt {A} seen n (f : smeta -> option A) o : opt_arg seen n f = Some o ->
  (given o = true <-> assoc n seen <> None).
Proof.
  unfold opt_arg. destruct (assoc n seen) as [m|].
  - destruct (f m); [|discriminate]. intros E. injection E as <-. split; [discriminate|reflexivity].
  - intros E. injection E as <-. split; [discriminate|contradiction].
Qed.
Lemma given_flag seen n b : flag seen n = Some b -> (b = true <-> assoc n seen <> None).
Proof.
  unfold flag. destruct (assoc n seen) as [m|].
  - destruct m; try discriminate. intros E. injection E as <-. split; [discriminate|reflexivity].
  - intros E. injection E as <-. split; [discriminate|contradiction].
Qed.
(** ** Switched off *)
Definition honest {A} (f : smeta -> option A) (off : A -> bool) : Prop :=
  forall m a, meta_ok m -> f m = Some a -> (off a = false <-> ~ switched_off (rest m)).
Lemma on_opt {A} known seen n (f : smeta -> option A) off o : proper known seen -> honest f off ->
  opt_arg seen n f = Some o ->
  (match o with Some a => negb (off a) | None => false end = true <-> on_seen n seen).
Proof.
  intros P H. unfold opt_arg, on_seen. destruct (assoc n seen) as [m|] eqn:E.
  - destruct (f m) as [a|] eqn:F; [|discriminate]. intros Q. injection Q as <-.
    rewrite negb_true_iff, (H m a (proj1 (P n m E)) F). split; [eauto|]. intros (m' & Q & S). injection Q as <-. exact S.
  - intros Q. injection Q as <-. split; [discriminate|]. intros (m' & Q & _). discriminate.
Qed.
Lemma nesting_honest {A} known l rules (k : list (string * smeta) -> option A) kw st off :
  tidy known l rules = true -> exact_seen known l rules k -> In ("off", Alone) l ->
  (forall seen a, k seen = Some a -> (off a = true <-> assoc "off" seen <> None)) ->
  (forall a ls b, st a ls = Some b -> off b = off a) -> (forall a, kw = Some a -> off a = false) ->
  honest (nesting kw (fun items => get? seen := collect known [] items in k seen) no_value st) off.
Proof.
  intros T X I HK HS HW m a M H. destruct m as [p|p d ts|p v]; simpl in *.
  - rewrite (HW a H). split; [|reflexivity]. intros _ (d & ts & cs & c & E & _). discriminate.
  - unfold extract_literals in H. destruct (parse_meta_list ts) as [items|] eqn:P; [|discriminate]. cbn [obind] in H.
    destruct (accepted_arguments ts items P) as (cs & AR & AS).
    destruct (collect known [] (non_literals items)) as [seen|] eqn:C; [|discriminate]. cbn [obind] in H.
    destruct (k seen) as [x|] eqn:E; [|discriminate]. cbn [obind] in H.
    assert (O : off a = off x).
    { destruct (literals items) as [|s ls]; [injection H as <-; reflexivity|]. apply (HS _ _ _ H). }
    rewrite O. rewrite <- not_true_iff_false, (HK seen x E).
    destruct (linked known l rules T cs items seen AS C) as (PR & L1 & L2 & L3).
    apply not_iff_compat. split.
    + intros N. apply not_none in N. destruct N as (m & Q). destruct (L1 _ _ Q) as (c & J & _ & Y).
      assert (R : rest m = []).
      { destruct (proj1 (X seen PR) (some_not_none _ _ E)) as [AG _]. destruct (AG _ _ Q) as (fm & L & F).
        apply (assoc_In _ _ _ (table_nodup known l rules T)) in I. rewrite I in L. injection L as <-.
        inversion F. reflexivity. }
      rewrite R in Y. exists d, ts, cs, c. auto.
    + intros (d' & ts' & cs' & c & Q & AR' & J & Y). injection Q as <- <-.
      rewrite (arguments_fun _ _ _ AR' AR) in J.
      destruct (L3 "off" c [] eq_refl J Y) as (m & Z & _). congruence.
  - discriminate.
Qed.

Ltac opened H :=
  repeat match type of H with
  | obind (opt_arg ?s ?n ?f) _ <> None =>
      let O := fresh "O" in destruct (opt_arg s n f) eqn:O in H; [cbn [obind] in H|contradiction (H eq_refl)]
  | obind (flag ?s ?n) _ <> None =>
      let O := fresh "O" in destruct (flag s n) eqn:O in H; [cbn [obind] in H|contradiction (H eq_refl)]
  end.
Create HintDb grammar.
Ltac cells P :=
  repeat apply Forall_cons; try apply Forall_nil;
  match goal with
  | O : opt_arg ?s ?n ?f = Some _ |- cell ?l ?s ?n =>
      eapply (cell_opt _ l s n f _ P); [solve [eauto with grammar]|reflexivity|congruence]
  | O : flag ?s ?n = Some _ |- cell ?l ?s ?n => apply cell_flag; [reflexivity|congruence]
  end.
Ltac fill P :=
  repeat match goal with
  | G : cell ?l ?s ?n |- obind (opt_arg ?s ?n ?f) _ <> None =>
      let O := fresh "O" in
      destruct (opt_arg s n f) eqn:O; cbn [obind];
      [|exfalso; revert O; eapply (cell_opt _ l s n f _ P); [solve [eauto with grammar]|reflexivity|exact G]]
  | G : cell ?l ?s ?n |- obind (flag ?s ?n) _ <> None =>
      let O := fresh "O" in
      destruct (flag s n) eqn:O; cbn [obind]; [|exfalso; revert O; apply (cell_flag l s n eq_refl); exact G]
  end.
Ltac spread F :=
  cbv [builder_names serde_names struct_names field_names] in F; repeat (apply Forall_cons_iff in F; let G := fresh "G" in destruct F as [G F]).
(** A chain of options with nothing to check. *)
Ltac chain :=
  let seen := fresh "seen" in let P := fresh "P" in
  intros seen P; rewrite (agrees_cells _ _ _ _ P); split;
  [intros H; opened H; split; [cells P|intros x []]|intros [F _]; spread F; fill P; discriminate].

Lemma tidy_off : tidy ["off"] [("off", Alone)] [] = true.
Proof. reflexivity. Qed.
Lemma value_seen : exact_seen ["off"] [("off", Alone)] [] (fun seen => flag seen "off").
Proof.
  intros seen P. rewrite (agrees_cells _ _ _ _ P), (cell_flag [("off", Alone)]) by reflexivity. split.
  - intros H. split; [repeat constructor; exact H|intros x []].
  - intros [F _]. inversion F. assumption.
Qed.
Lemma refuse_exact {A} : set_exact (A := A) false (fun _ _ => None).
Proof.
  intros a ls N. split; [contradiction|]. intros [E|[E _]]; [contradiction|discriminate].
Qed.
Lemma name_exact {A} (k : A -> strarg -> A) : set_exact true (fun a ls => get? n := literal_name ls in Some (k a n)).
Proof.
  intros a ls N. split.
  - destruct ls as [|s [|s' ls]]; try contradiction. simpl. destruct (lit_str s) as [t|] eqn:L; [|contradiction].
    intros _. right. eauto.
  - intros [E|(_ & s & t & -> & L)]; [contradiction|]. simpl. rewrite L. discriminate.
Qed.
Lemma exact_map {A B} (f : smeta -> option A) (g : A -> B) fm : exact f fm -> exact (fun m => option_map g (f m)) fm.
Proof. intros X m M. rewrite <- (X m M). destruct (f m); simpl; split; congruence. Qed.
Lemma bool_exact : exact bool_arg Switch.
Proof.
  apply (exact_map (nesting (Some false) value_from_list no_value (fun _ _ => None)) negb).
  apply (nesting_exact _ _ _ _ tidy_off value_seen); [exact refuse_exact|]. split; [auto|discriminate].
Qed.
Lemma bool_honest : honest bool_arg negb.
Proof.
  intros m a M H. unfold bool_arg in H.
  destruct (nesting (Some false) value_from_list no_value (fun _ _ => None) m) as [b|] eqn:E; [|discriminate].
  injection H as <-. rewrite negb_involutive.
  revert m b M E. apply (nesting_honest _ _ _ _ _ _ (fun b => b) tidy_off value_seen).
  - left. reflexivity.
  - intros seen a. apply given_flag.
  - discriminate.
  - intros a Q. injection Q as <-. reflexivity.
Qed.
Lemma text_exact : exact string_arg Text.
Proof.
  assert (V : exact_seen ["off"] [("off", Alone)] []
                (fun seen => get? off := flag seen "off" in Some (mk_strarg off None))).
  { intros seen P. rewrite <- (value_seen seen P). destruct (flag seen "off"); split; simpl; congruence. }
  assert (E : forall m, string_arg m = nesting None (fun items => get? seen := collect ["off"] [] items in
       get? off := flag seen "off" in Some (mk_strarg off None)) no_value
       (fun a ls => match ls with [s] => get? v := lit_str s in Some (mk_strarg (sa_off a) (Some v)) | _ => None end) m).
  { intros [p|p d ts|p v]; try reflexivity. simpl. unfold extract_literals. destruct (parse_meta_list ts); [|reflexivity].
    cbn [obind]. unfold value_from_list. destruct (collect ["off"] [] (non_literals l)); reflexivity. }
  intros m M. rewrite E. revert m M. apply (nesting_exact _ _ _ _ tidy_off V); [|split; [intros Q; contradiction (Q eq_refl)|discriminate]].
  intros a ls N. split.
  - destruct ls as [|s [|s' ls]]; try contradiction. destruct (lit_str s) as [t|] eqn:L; [|contradiction].
    intros _. right. eauto.
  - intros [Q|(_ & s & t & -> & L)]; [contradiction|]. rewrite L. discriminate.
Qed.
Lemma assigned_exact : exact bool_from_meta Assigned.
Proof.
  intros m M. destruct m as [p|p d ts|p v]; simpl in *.
  - split; [constructor|discriminate].
  - split; [contradiction|]. intros F. inversion F.
  - split.
    + intros H. apply fit_assigned. destruct (parse_lit v) as [s|] eqn:P; [|contradiction]. cbn [obind] in H.
      destruct (lit_bool s) as [b|] eqn:L.
      * assert (B : s = "true" \/ s = "false") by (apply lit_bool_spec; congruence).
        exists s. split; [destruct B as [-> | ->]; simpl; auto|].
        unfold parse_lit in P. destruct v as [|[x|x|x|d g] [|[y|y|y|d' g'] [|z v]]]; try discriminate.
        -- destruct (lit_bool x); [|discriminate]. injection P as <-. auto.
        -- destruct (String.eqb_spec x "-"); [|discriminate]. destruct (is_number y); [|discriminate].
           injection P as <-. subst x. destruct B; discriminate.
        -- injection P as <-. auto.
      * destruct (lit_str s) as [t|] eqn:S; [|contradiction]. cbn [obind] in H.
        assert (B : t = "true" \/ t = "false") by (apply lit_bool_spec; exact H).
        exists t. split; [destruct B as [-> | ->]; simpl; auto|]. right. right.
        apply (string_lit_for v s t P S). destruct B as [-> | ->]; discriminate.
    + intros F. inversion F as [| |v' (t & I & V)| | | | | | | | | | | | | | | |]; subst.
      assert (B : lit_bool t <> None) by (apply lit_bool_spec; simpl in I; intuition).
      destruct V as [-> |[-> |V]].
      * simpl. destruct (lit_bool t) eqn:Q; [cbn [obind]; rewrite Q; discriminate|contradiction].
      * simpl. destruct (lit_bool t); [discriminate|contradiction].
      * apply string_for_lit in V. destruct V as (s & -> & L & K). cbn [obind]. rewrite K, L. cbn [obind]. exact B.
Qed.
Lemma path_whole ts : whole_path ts <> None <-> any_path ts.
Proof.
  unfold whole_path. split.
  - destruct (parse_path ts) as [[p q]|] eqn:P; [|contradiction]. cbn [obind fst snd].
    destruct q; [|contradiction]. intros _. apply parse_path_inv in P. destruct P as (-> & N & F).
    rewrite app_nil_r. apply any_path_toks; assumption.
  - intros H. apply toks_of_path in H. destruct H as (p & -> & N & F).
    rewrite <- (app_nil_r (path_toks p)), parse_path_back by (assumption || exact I). discriminate.
Qed.
Lemma single_off c d ts : d <> DNone -> arguments [c] ts -> (forall r, ~ argument_for "off" c r) -> ~ switched_off [TGroup d ts].
Proof.
  intros D A N (d' & ts' & cs & c' & E & A' & I & X). injection E as <- <-.
  rewrite (arguments_fun _ _ _ A' A) in I. destruct I as [<-|[]]. apply (N _ X).
Qed.
Lemma place_exact : exact pub_arg Place.
Proof.
  intros m M. destruct m as [p|p d ts|p v]; simpl in *.
  - split; [constructor|discriminate].
  - unfold extract_literals. split.
    + intros H. destruct (parse_meta_list ts) as [items|] eqn:P; [|contradiction]. cbn [obind] in H.
      destruct (accepted_arguments ts items P) as (cs & A' & AS).
      destruct (pub_from_list (non_literals items)) as [x|] eqn:F; [|contradiction]. cbn [obind] in H.
      destruct (literals items) eqn:L; [|contradiction].
      assert (NL : non_literals items = items).
      { clear -L. induction items as [|[s|m] l IH]; simpl in *; [reflexivity|discriminate|]. rewrite IH; auto. }
      rewrite NL in F. destruct items as [|[s|m] [|y r]]; try discriminate.
      apply all_some_Forall2 in AS. inversion AS as [|c y cs' r' Pc Q E1 E2]; subst. inversion Q; subst.
      apply fit_place_in with c; [apply M|exact A'|].
      destruct (parse_nested_inv _ _ Pc) as [T MO].
      unfold pub_from_list in F.
      destruct (String.eqb_spec (meta_name m) "crate") as [E|_].
      { left. destruct m as [q| |]; try discriminate. rewrite T. exact (meta_argument (SPath q) "crate" MO E eq_refl). }
      destruct (String.eqb_spec (meta_name m) "super") as [E|_].
      { right. left. destruct m as [q| |]; try discriminate. rewrite T. exact (meta_argument (SPath q) "super" MO E eq_refl). }
      destruct (String.eqb_spec (meta_name m) "in_mod") as [E|_]; [|discriminate].
      right. right. destruct m as [q|q d' g|q v]; try discriminate. exists v. rewrite T.
      split; [exact (meta_argument (SValue q v) "in_mod" MO E eq_refl)|].
      unfold path_from_meta in F. destruct (parse_lit v) as [s|] eqn:PL.
      * left. destruct (lit_str s) as [t|] eqn:S; [|discriminate]. apply (string_lit v s t PL S).
      * right. apply path_whole. unfold whole_path. destruct (parse_path v) as [[q' r]|]; [|discriminate]. cbn [obind fst snd] in *.
        destruct r; discriminate.
    + intros F. inversion F as [| | | |d' ts' c D A H| | | | | | | | | | | | | |]; subst.
      assert (Q : exists m, parse_nested c = Some (NMeta m) /\ pub_from_list [NMeta m] <> None).
      { destruct H as [H|[H|(v & H & V)]].
        - destruct (row_item "crate" c [] Alone eq_refl H fit_alone) as (m & P & E & K & R). exists m. split; [exact P|].
          unfold pub_from_list. rewrite E. destruct m; discriminate.
        - destruct (row_item "super" c [] Alone eq_refl H fit_alone) as (m & P & E & K & R). exists m. split; [exact P|].
          unfold pub_from_list. rewrite E. destruct m; discriminate.
        - assert (NV : v <> []).
          { destruct V as [(s & ->)|V]; [discriminate|]. destruct V as [l V|l V]; [destruct V; discriminate|discriminate]. }
          assert (X : exists m, parse_nested c = Some (NMeta m) /\ meta_name m = "in_mod" /\ rest m = TPunct "=" :: v).
          { assert (X : exists ab, c = path_toks (mk_path ab ["in_mod"]) ++ TPunct "=" :: v)
              by (inversion H; subst; [exists false|exists true]; reflexivity).
            destruct X as (ab & ->). exists (SValue (mk_path ab ["in_mod"]) v). split; [|split; reflexivity].
            apply (parse_nested_back (SValue (mk_path ab ["in_mod"]) v)). repeat split; [discriminate|repeat constructor|exact NV]. }
          destruct X as (m & P & E & R). exists m. split; [exact P|].
          unfold pub_from_list. rewrite E. destruct m as [q|q d' g|q w]; try discriminate. injection R as ->. simpl.
          destruct V as [V|V].
          + destruct (a_string_lit _ V) as (s & t & -> & L). simpl. rewrite L. discriminate.
          + assert (PL : parse_lit v = None).
            { apply toks_of_path in V. destruct V as (q' & -> & N & F').
              apply (path_no_lit (SPath q')). repeat split; assumption. }
            rewrite PL. apply path_whole in V. unfold whole_path in V. destruct (parse_path v) as [[q' r]|]; [|contradiction].
            cbn [obind fst snd] in *. destruct r; [discriminate|contradiction]. }
      destruct Q as (m & P & N). rewrite (arguments_list _ _ A). simpl all_some. rewrite P. cbn [obind non_literals filter].
      destruct (pub_from_list [NMeta m]) eqn:Q; [|contradiction]. cbn. discriminate.
  - unfold pub_from_value. split.
    + intros H. apply fit_place_is. destruct (parse_lit v) as [s|] eqn:P; [|contradiction]. cbn [obind] in H.
      destruct (lit_str s) as [t|] eqn:S; [|contradiction]. cbn [obind] in H.
      destruct (String.eqb_spec t "crate") as [->|_]; [left; apply (string_lit_for v s _ P S); discriminate|].
      destruct (String.eqb_spec t "super") as [->|_]; [right; apply (string_lit_for v s _ P S); discriminate|contradiction].
    + intros F. inversion F as [| | | | |v' V| | | | | | | | | | | | |]; subst.
      destruct V as [V|V]; apply string_for_lit in V; destruct V as (s & -> & L & _); cbn [obind]; rewrite L; discriminate.
Qed.
Lemma place_honest : honest pub_arg (fun _ => false).
Proof.
  intros m a M H. split; [|reflexivity]. intros _.
  assert (F : fits Place (rest m)) by (apply (place_exact m M); congruence). clear H.
  inversion F as [| | |Q|d ts c D A X Q|v V Q| | | | | | | | | | | | |]; rewrite <- ?Q.
  - intros (d & ts & cs & c & E & _). discriminate.
  - apply (single_off c d ts D A). intros r Y.
    destruct X as [X|[X|(v & X & _)]]; destruct (argument_for_fun _ _ _ _ _ X Y) as [E _]; discriminate.
  - intros (d & ts & cs & c & E & _). discriminate.
Qed.
Lemma attributes_exact : exact attributes_arg Attributes.
Proof.
  intros m M. destruct m as [p|p d ts|p v].
  - split; [contradiction|]. intros F. inversion F.
  - unfold attributes_arg. split.
    + destruct (from_meta (MetaList ts)) as [l|] eqn:E; [|contradiction]. intros _. apply from_meta_iff in E.
      apply (fit_attributes d ts l); [apply M|exact E].
    + intros F. inversion F as [| | | | | |d' ts' l D L| | | | | | | | | | | |]; subst. apply from_meta_iff in L. rewrite L. discriminate.
  - split; [contradiction|]. intros F. inversion F.
Qed.
Lemma ident_exact : exact ident_arg Name.
Proof.
  intros m M. destruct m as [p|p d ts|p v]; simpl in *.
  - split; [constructor|discriminate].
  - split.
    + intros H. destruct ts as [|[s|s|s|d' g] [|y ts]]; try contradiction. destruct (ident_ok s) eqn:K; [|contradiction].
      apply fit_name; [apply M|]. apply ident_name_ok. exact K.
    + intros F. inversion F as [| | | | | | | |d' s D K| | | | | | | | | |]; subst. apply ident_name_ok in K. rewrite K. discriminate.
  - split; [contradiction|]. intros F. inversion F.
Qed.
Lemma path_exact : exact path_arg OnePath.
Proof.
  intros m M. destruct m as [p|p d ts|p v]; simpl in *.
  - split; [contradiction|]. intros F. inversion F.
  - rewrite path_whole. split; [intros H; apply fit_path; [apply M|exact H]|]. intros F. inversion F. assumption.
  - split; [contradiction|]. intros F. inversion F.
Qed.
Lemma path_arguments cs ts : arguments cs ts ->
  (all_some whole_path (terminated ts) <> None <-> Forall any_path cs).
Proof.
  intros A. rewrite (arguments_terminated _ _ A). rewrite Forall_forall. split.
  - intros H c I. apply not_none in H. destruct H as (l & H). destruct (all_some_In _ _ _ _ H I) as (s & _ & W).
    apply path_whole. congruence.
  - intros H. destruct (all_some_total whole_path cs) as (l & ->); [|discriminate].
    intros c I. apply not_none, path_whole, H, I.
Qed.
Lemma terminated_paths ts l : all_some whole_path (terminated ts) = Some l ->
  arguments (terminated ts) ts /\ Forall any_path (terminated ts) /\ List.length (terminated ts) = List.length l.
Proof.
  intros H. assert (A : arguments (terminated ts) ts).
  { apply (terminated_arguments _ ts (le_n _)). intros c I ->. destruct (all_some_In _ _ _ _ H I) as (s & _ & W). discriminate. }
  split; [exact A|]. split; [apply (path_arguments _ _ A); congruence|].
  apply all_some_Forall2 in H. clear -H. induction H; simpl; congruence.
Qed.
Lemma error_exact : exact error_arg TwoPaths.
Proof.
  intros m M. destruct m as [p|p d ts|p v]; simpl in *.
  - split; [contradiction|]. intros F. inversion F.
  - split.
    + intros H. destruct (all_some whole_path (terminated ts)) as [l|] eqn:E; [|contradiction]. cbn [obind] in H.
      destruct (terminated_paths ts l E) as (A & F & N). apply fit_two with (terminated ts); [apply M|exact A|exact F|].
      rewrite N. destruct l as [|x [|y [|z l]]]; simpl in *; try contradiction; lia.
    + intros F. inversion F as [| | | | | | | | | |d' ts' cs D A P L| | | | | | | |]; subst.
      apply (path_arguments _ _ A) in P. destruct (all_some whole_path (terminated ts)) as [l|] eqn:E; [|contradiction].
      cbn [obind]. apply terminated_paths in E. destruct E as (_ & _ & E). rewrite (arguments_terminated _ _ A) in E.
      rewrite E in L. destruct l as [|x [|y [|z l]]]; simpl in *; try lia; discriminate.
  - split; [contradiction|]. intros F. inversion F.
Qed.
Lemma mode_exact : exact mode_arg Mode.
Proof.
  intros m M. destruct m as [p|p d ts|p v]; simpl in *.
  - split; [contradiction|]. intros F. inversion F.
  - split.
    + intros H. destruct ts as [|[s|s|s|d' g] [|y ts]]; try contradiction. apply fit_mode; [apply M|].
      destruct (String.eqb_spec s "sync"); [subst; simpl; auto|].
      destruct (String.eqb_spec s "async"); [subst; simpl; auto|].
      destruct (String.eqb_spec s "plain"); [subst; simpl; auto|contradiction].
    + intros F. inversion F as [| | | | | | | | | | | |d' s D I| | | | | |]; subst.
      simpl in I. destruct I as [<-|[<-|[<-|[]]]]; discriminate.
  - split; [contradiction|]. intros F. inversion F.
Qed.
Lemma mode_honest : honest mode_arg (fun _ => false).
Proof.
  intros m a M H. split; [|reflexivity]. intros _.
  assert (F : fits Mode (rest m)) by (apply (mode_exact m M); congruence). clear H.
  inversion F as [| | | | | | | | | | | |d s D I Q| | | | | |]. apply (single_off [TIdent s] d [TIdent s] D).
  - apply args_last, one_word.
  - intros r Y. inversion Y; subst. simpl in I. intuition discriminate.
Qed.
Lemma default_exact : exact default_arg Value.
Proof.
  intros m M. destruct m as [p|p d ts|p v].
  - split; [constructor|discriminate].
  - assert (D : d <> DNone) by apply M. simpl rest. split.
    + intros H. apply not_none in H. destruct H as (a & H). apply (default_list d ts ts a p D eq_refl) in H.
      destruct H as [(-> & _)|[(x & s & A & V & _)|(x & s & A & V & _)]].
      * apply fit_value_none, D.
      * apply (fit_value d ts x s D A V).
      * apply (fit_value_off d ts x s D A V).
    + intros F. apply (some_not_none _ (match default_arg (SList p d ts) with Some a => a | None => mk_defarg false None false end)).
      assert (H : exists a, default_arg (SList p d ts) = Some a).
      { inversion F; subst; eexists; apply (default_list d _ _ _ p D eq_refl).
        - left. split; reflexivity.
        - right. left. eexists. eexists. split; [eassumption|]. split; [eassumption|reflexivity].
        - right. right. eexists. eexists. split; [eassumption|]. split; [eassumption|reflexivity]. }
      destruct H as (a & ->). reflexivity.
  - split; [contradiction|]. intros F. inversion F.
Qed.
Lemma paths_exact : exact path_list Paths.
Proof.
  intros m M. destruct m as [p|p d ts|p v].
  - split; [contradiction|]. intros F. inversion F.
  - unfold path_list, by_list. simpl rest. split.
    + intros H. destruct (parse_meta_list ts) as [items|] eqn:P; [|contradiction]. cbn [obind] in H.
      destruct (accepted_arguments ts items P) as (cs & A & AS). apply fit_paths with cs; [apply M|exact A|].
      apply not_none in H. destruct H as (a & H).
      apply Forall_forall. intros c I. destruct (all_some_In _ _ _ _ AS I) as (i & J & Pc).
      destruct (all_some_In _ _ _ _ H J) as (s & _ & S). destruct i as [x|[q|q d' g|q v]]; try discriminate.
      destruct (parse_nested_inv _ _ Pc) as [-> (N & F & _)]. apply any_path_toks; assumption.
    + intros F. inversion F as [| | | | | | | | | | |d' ts' cs D A P| | | | | | |]; subst. rewrite Forall_forall in P.
      assert (Q : forall c, In c cs -> exists q, parse_nested c = Some (NMeta (SPath q))).
      { intros c I. specialize (P c I). apply toks_of_path in P. destruct P as (q & -> & N & F'). exists q.
        apply (parse_nested_back (SPath q)). repeat split; assumption. }
      destruct (all_some_total parse_nested cs) as (items & AS); [intros c I; destruct (Q c I); eauto|].
      rewrite (arguments_list _ _ A), AS. cbn [obind].
      destruct (all_some_total (fun i => match i with NMeta (SPath p) => Some (show_path p) | _ => None end) items) as (l & E).
      { intros i I. destruct (all_some_In_r _ _ _ _ AS I) as (c & J & Pc). destruct (Q c J) as (q & E). rewrite Pc in E. injection E as ->. eauto. }
      rewrite E. discriminate.
  - split; [contradiction|]. intros F. inversion F.
Qed.
#[export] Hint Resolve bool_exact text_exact assigned_exact place_exact attributes_exact ident_exact path_exact
  error_exact mode_exact default_exact paths_exact : grammar.

(** ** Helpers *)
Definition extends (l : list (string * form)) : Prop :=
  forall n fm, assoc n helper_table = Some fm -> assoc n l = Some fm.
Lemma not_both (a b : bool) P Q : (a = true <-> P) -> (b = true <-> Q) -> (negb (a && b) = true <-> ~ (P /\ Q)).
Proof. intros <- <-. destruct a, b; simpl; intuition discriminate. Qed.
Lemma helper_cells known l seen : proper known seen -> extends l ->
  (helper_of seen <> None <-> Forall (cell l seen) helper_names /\ ~ broken_seen seen (Given "public" "private")).
Proof.
  intros P X. unfold helper_of. split.
  - intros H. opened H. cbv zeta in H.
    match type of H with obind (ensure ?b) _ <> _ => destruct b eqn:K; [|contradiction] end.
    split; [|apply (proj1 (not_both _ _ _ _ (given_opt _ _ _ _ O2) (given_opt _ _ _ _ O3))); exact K].
    repeat apply Forall_cons; try apply Forall_nil;
    match goal with
    | O : opt_arg ?s ?n ?f = Some _ |- cell ?l ?s ?n =>
        eapply (cell_opt _ l s n f _ P); [solve [eauto with grammar]|apply X; reflexivity|congruence]
    | O : flag ?s ?n = Some _ |- cell ?l ?s ?n => apply cell_flag; [apply X; reflexivity|congruence]
    end.
  - intros [F R]. unfold helper_names in F. spread F.
    repeat match goal with
    | G : cell l ?s ?n |- obind (opt_arg ?s ?n ?f) _ <> None =>
        let O := fresh "O" in
        destruct (opt_arg s n f) eqn:O; cbn [obind];
        [|exfalso; revert O; eapply (cell_opt _ l s n f _ P); [solve [eauto with grammar]|apply X; reflexivity|exact G]]
    | G : cell l ?s ?n |- obind (flag ?s ?n) _ <> None =>
        let O := fresh "O" in
        destruct (flag s n) eqn:O; cbn [obind]; [|exfalso; revert O; apply (cell_flag l s n (X n Alone eq_refl)); exact G]
    end.
    cbv zeta. match goal with |- obind (ensure ?b) _ <> _ => assert (K : b = true) end.
    { apply (not_both _ _ _ _ (given_opt _ _ _ _ O2) (given_opt _ _ _ _ O3)). exact R. }
    rewrite K. discriminate.
Qed.
Lemma helper_seen : exact_seen helper_names helper_table helper_rules helper_of.
Proof.
  intros seen P. rewrite (agrees_cells _ _ _ _ P), (helper_cells _ helper_table _ P (fun n fm E => E)).
  split; intros [F R]; (split; [exact F|]).
  - intros x [<-|[]]. exact R.
  - apply R. left. reflexivity.
Qed.
Lemma helper_off seen h : helper_of seen = Some h -> (h_off h = true <-> assoc "off" seen <> None).
Proof.
  unfold helper_of. destruct (opt_arg seen "name" string_arg); [cbn [obind]|discriminate].
  destruct (flag seen "off") as [b|] eqn:O; [cbn [obind]|discriminate].
  repeat match goal with |- obind (opt_arg ?s ?n ?f) _ = Some _ -> _ => destruct (opt_arg s n f); [cbn [obind]|discriminate] end.
  cbv zeta. match goal with |- obind (ensure ?b) _ = _ -> _ => destruct b; [|discriminate] end.
  intros E. injection E as <-. apply (given_flag _ _ _ O).
Qed.
Lemma tidy_helper : tidy helper_names helper_table helper_rules = true.
Proof. reflexivity. Qed.
Lemma helper_exact : exact helper_arg Helper.
Proof. apply (nesting_exact _ _ _ _ tidy_helper helper_seen); [exact (name_exact with_name)|split; [auto|discriminate]]. Qed.
Lemma helper_honest : honest helper_arg h_off.
Proof.
  apply (nesting_honest _ _ _ _ _ _ h_off tidy_helper helper_seen).
  - simpl. auto.
  - exact helper_off.
  - intros a ls b H. destruct (literal_name ls); [|discriminate]. injection H as <-. reflexivity.
  - intros a Q. injection Q as <-. reflexivity.
Qed.
(** A chain that starts with the parts of a helper. *)
Ltac open_helper H P hh :=
  match type of H with obind (helper_of ?s) _ <> None =>
    let O := fresh "Oh" in destruct (helper_of s) as [hh|] eqn:O in H; [cbn [obind] in H|contradiction (H eq_refl)]
  end.
Lemma getter_seen : exact_seen (helper_names ++ ["clone"; "copy"; "as_ref"])
    (helper_table ++ [("clone", Alone); ("copy", Alone); ("as_ref", Alone)])
    (helper_rules ++ [Given "clone" "copy"; Given "clone" "as_ref"; Given "copy" "as_ref"])
    (fun seen =>
       get? h := helper_of seen in
       get? cl := flag seen "clone" in
       get? cp := flag seen "copy" in
       get? ar := flag seen "as_ref" in
       let a := mk_accessor h cl cp ar in
       get? _ := ensure (accessor_exclusives_ok a) in
       Some a).
Proof.
  intros seen P. rewrite (agrees_cells _ _ _ _ P), Forall_app.
  assert (X : extends (helper_table ++ [("clone", Alone); ("copy", Alone); ("as_ref", Alone)])).
  { intros n fm E. cbn in E |- *. repeat (destruct (String.eqb n _) in *; [exact E|]). discriminate. }
  pose proof (helper_cells _ _ _ P X) as HC. split.
  - intros H. open_helper H P h. opened H.
    destruct (proj1 HC (some_not_none _ _ Oh)) as [F R].
    cbv zeta in H. match type of H with obind (ensure ?b) _ <> _ => destruct b eqn:K; [|contradiction] end.
    split; [split; [exact F|cells P]|].
    pose proof (given_flag _ _ _ O). pose proof (given_flag _ _ _ O0). pose proof (given_flag _ _ _ O1).
    unfold accessor_exclusives_ok in K. apply andb_true_iff in K. destruct K as [_ K]. simpl in K.
    intros x [<-|[<-|[<-|[<-|[]]]]]; [exact R| | |]; intros [A B]; destruct b, b0, b1; try discriminate;
      (apply H0 in A || apply H1 in A || apply H2 in A); (apply H1 in B || apply H2 in B); discriminate.
  - intros [[F1 F2] R]. 
    assert (R1 : ~ broken_seen seen (Given "public" "private")) by (apply R; left; reflexivity).
    apply (conj F1) in R1. apply HC in R1. destruct (helper_of seen) as [h|] eqn:Oh; [cbn [obind]|contradiction].
    spread F2. fill P. cbv zeta.
    match goal with |- obind (ensure ?b) _ <> _ => assert (K : b = true) end.
    { unfold accessor_exclusives_ok. apply andb_true_iff. split.
      - simpl. unfold helper_of in Oh.
        repeat match type of Oh with
        | obind (opt_arg ?s ?n ?f) _ = Some _ => destruct (opt_arg s n f); [cbn [obind] in Oh|discriminate]
        | obind (flag ?s ?n) _ = Some _ => destruct (flag s n); [cbn [obind] in Oh|discriminate]
        end.
        cbv zeta in Oh. match type of Oh with obind (ensure ?b) _ = _ => destruct b eqn:K; [|discriminate] end.
        injection Oh as <-. exact K.
      - pose proof (given_flag _ _ _ O) as H0. pose proof (given_flag _ _ _ O0) as H1. pose proof (given_flag _ _ _ O1) as H2.
        simpl. destruct b, b0, b1; try reflexivity; exfalso.
        + apply (R (Given "clone" "copy")); [simpl; auto|]. split; [apply H0|apply H1]; reflexivity.
        + apply (R (Given "clone" "copy")); [simpl; auto|]. split; [apply H0|apply H1]; reflexivity.
        + apply (R (Given "clone" "as_ref")); [simpl; auto|]. split; [apply H0|apply H2]; reflexivity.
        + apply (R (Given "copy" "as_ref")); [simpl; auto 6|]. split; [apply H1|apply H2]; reflexivity. }
    rewrite K. discriminate.
Qed.
Lemma getter_exact : exact accessor_arg Getter.
Proof.
  eapply nesting_exact; [|exact getter_seen|exact (name_exact (fun a n => mk_accessor (with_name (a_base a) n) (a_clone a) (a_copy a) (a_as_ref a)))|split; [auto|discriminate]]; reflexivity.
Qed.
Lemma setter_seen : exact_seen (helper_names ++ ["into"]) (helper_table ++ [("into", Assigned)]) helper_rules
    (fun seen =>
       get? h := helper_of seen in
       get? i := opt_arg seen "into" bool_from_meta in
       Some (mk_setter h i)).
Proof.
  intros seen P. rewrite (agrees_cells _ _ _ _ P), Forall_app.
  assert (X : extends (helper_table ++ [("into", Assigned)])).
  { intros n fm E. cbn in E |- *. repeat (destruct (String.eqb n _) in *; [exact E|]). discriminate. }
  pose proof (helper_cells _ _ _ P X) as HC. split.
  - intros H. open_helper H P h. opened H. destruct (proj1 HC (some_not_none _ _ Oh)) as [F R].
    split; [split; [exact F|cells P]|]. intros x [<-|[]]. exact R.
  - intros [[F1 F2] R].
    assert (R1 : ~ broken_seen seen (Given "public" "private")) by (apply R; left; reflexivity).
    apply (conj F1) in R1. apply HC in R1. destruct (helper_of seen) as [h|] eqn:Oh; [cbn [obind]|contradiction].
    spread F2. fill P. discriminate.
Qed.
Lemma setter_exact : exact setter_arg Setter.
Proof.
  eapply nesting_exact; [|exact setter_seen|exact (name_exact (fun a n => mk_setter (with_name (st_base a) n) (st_into a)))|split; [auto|discriminate]]; reflexivity.
Qed.
Definition builder_body (on_struct : bool) (seen : list (string * smeta)) : option builder :=
       get? h := helper_of seen in
       get? a := opt_arg seen "attributes" attributes_arg in
       get? ai := opt_arg seen "attributes_impl" attributes_arg in
       get? into := opt_arg seen "into" bool_arg in
       get? req := opt_arg seen "required" bool_arg in
       get? opt := opt_arg seen "opt_in" bool_arg in
       get? post := opt_arg seen "post_build" ident_arg in
       get? err := opt_arg seen "error" error_arg in
       let b := mk_builder h a ai into req opt post err in
       get? _ := ensure (on_struct || field_builder_ok b) in
       Some b.
Lemma struct_builder_seen : exact_seen (helper_names ++ builder_names)
    (helper_table ++ builder_table ++ [("opt_in", Switch); ("post_build", Name); ("error", TwoPaths)]) helper_rules
    (builder_body true).
Proof.
  intros seen P. rewrite (agrees_cells _ _ _ _ P), Forall_app. unfold builder_body.
  assert (X : extends (helper_table ++ builder_table ++ [("opt_in", Switch); ("post_build", Name); ("error", TwoPaths)])).
  { intros n fm E. cbn in E |- *. repeat (destruct (String.eqb n _) in *; [exact E|]). discriminate. }
  pose proof (helper_cells _ _ _ P X) as HC. split.
  - intros H. open_helper H P h. opened H. destruct (proj1 HC (some_not_none _ _ Oh)) as [F R].
    split; [split; [exact F|cells P]|]. intros x [<-|[]]. exact R.
  - intros [[F1 F2] R].
    assert (R1 : ~ broken_seen seen (Given "public" "private")) by (apply R; left; reflexivity).
    apply (conj F1) in R1. apply HC in R1. destruct (helper_of seen) as [h|] eqn:Oh; [cbn [obind]|contradiction].
    spread F2. fill P. discriminate.
Qed.
Lemma builder_name : set_exact true (fun b ls => get? n := literal_name ls in
       Some (mk_builder (with_name (b_base b) n) (b_attributes b) (b_attributes_impl b) (b_into b)
               (b_required b) (b_opt_in b) (b_post_build b) (b_error b))).
Proof.
  exact (name_exact (fun b n => mk_builder (with_name (b_base b) n) (b_attributes b) (b_attributes_impl b) (b_into b)
               (b_required b) (b_opt_in b) (b_post_build b) (b_error b))).
Qed.
Lemma struct_builder_exact : exact (builder_arg true) StructBuilder.
Proof. eapply nesting_exact; [|exact struct_builder_seen|exact builder_name|split; [auto|discriminate]]; reflexivity. Qed.
Lemma field_builder_seen : exact_seen (helper_names ++ builder_names) (helper_table ++ builder_table) helper_rules
    (builder_body false).
Proof.
  intros seen P. rewrite (agrees_cells _ _ _ _ P), Forall_app. unfold builder_body.
  assert (X : extends (helper_table ++ builder_table)).
  { intros n fm E. cbn in E |- *. repeat (destruct (String.eqb n _) in *; [exact E|]). discriminate. }
  pose proof (helper_cells _ _ _ P X) as HC.
  assert (HK : forall h, helper_of seen = Some h -> helper_exclusives_ok h = true).
  { clear. intros h Oh. unfold helper_of in Oh.
    repeat match type of Oh with
    | obind (opt_arg ?s ?n ?f) _ = Some _ => destruct (opt_arg s n f); [cbn [obind] in Oh|discriminate]
    | obind (flag ?s ?n) _ = Some _ => destruct (flag s n); [cbn [obind] in Oh|discriminate]
    end.
    cbv zeta in Oh. match type of Oh with obind (ensure ?b) _ = _ => destruct b eqn:K; [|discriminate] end.
    injection Oh as <-. exact K. }
  assert (AB : forall n, assoc n (helper_table ++ builder_table) = None -> (cell (helper_table ++ builder_table) seen n <-> assoc n seen = None)).
  { intros n E. unfold cell. destruct (assoc n seen) as [m|]; split; intros H; try reflexivity; try discriminate.
    - destruct (H m eq_refl) as (fm & Q & _). congruence. }
  split.
  - intros H. open_helper H P h. opened H. destruct (proj1 HC (some_not_none _ _ Oh)) as [F R].
    cbv zeta in H. match type of H with obind (ensure ?b) _ <> _ => destruct b eqn:K; [|contradiction] end.
    simpl in K. unfold field_builder_ok in K. simpl in K. rewrite !andb_true_iff, !negb_true_iff in K.
    destruct K as (((_ & K1) & K2) & K3).
    assert (Z : forall n A (f : smeta -> option A) o, opt_arg seen n f = Some o -> given o = false -> assoc n seen = None).
    { intros n A f x E G. pose proof (given_opt _ _ _ _ E) as W. destruct (assoc n seen); [|reflexivity].
      rewrite (proj2 W) in G; discriminate. }
    split; [|intros x [<-|[]]; exact R]. split; [exact F|].
    do 4 (apply Forall_cons; [cells P|]).
    repeat apply Forall_cons; try apply Forall_nil; apply AB; try reflexivity; eapply Z; eassumption.
  - intros [[F1 F2] R].
    assert (R1 : ~ broken_seen seen (Given "public" "private")) by (apply R; left; reflexivity).
    apply (conj F1) in R1. apply HC in R1. destruct (helper_of seen) as [h|] eqn:Oh; [cbn [obind]|contradiction].
    spread F2. apply AB in G3; [|reflexivity]. apply AB in G4; [|reflexivity]. apply AB in G5; [|reflexivity]. fill P.
    unfold opt_arg. rewrite G3, G4, G5. cbn. unfold field_builder_ok. simpl. rewrite (HK h eq_refl). discriminate.
Qed.
Lemma field_builder_exact : exact (builder_arg false) FieldBuilder.
Proof. eapply nesting_exact; [|exact field_builder_seen|exact builder_name|split; [auto|discriminate]]; reflexivity. Qed.
Definition fallible_body (seen : list (string * smeta)) : option fallible :=
       get? off := flag seen "off" in
       get? e := opt_arg seen "error" path_arg in
       Some (mk_fallible off e).
Lemma fallible_seen : exact_seen ["off"; "error"] [("off", Alone); ("error", OnePath)] [] fallible_body.
Proof. unfold fallible_body. chain. Qed.
Lemma fallible_exact : exact fallible_arg Fallible.
Proof. eapply nesting_exact; [|exact fallible_seen|exact refuse_exact|split; [auto|discriminate]]; reflexivity. Qed.
Lemma fallible_honest : honest fallible_arg fl_off.
Proof.
  eapply (nesting_honest _ _ _ _ _ _ fl_off); [|exact fallible_seen| | | |]; [reflexivity| | | |].
  - simpl. auto.
  - intros seen a H. unfold fallible_body in H. destruct (flag seen "off") as [b|] eqn:O; [cbn [obind] in H|discriminate].
    destruct (opt_arg seen "error" path_arg); [|discriminate]. injection H as <-. apply (given_flag _ _ _ O).
  - discriminate.
  - intros a Q. injection Q as <-. reflexivity.
Qed.
Definition serde_body (seen : list (string * smeta)) : option serde :=
       get? off := flag seen "off" in
       get? pub := opt_arg seen "public" pub_arg in
       get? priv := opt_arg seen "private" bool_arg in
       get? a := opt_arg seen "attributes" attributes_arg in
       get? ser := opt_arg seen "serialize" bool_arg in
       get? de := opt_arg seen "deserialize" bool_arg in
       get? fwd := opt_arg seen "forward_attrs" path_list in
       get? d := opt_arg seen "default" default_arg in
       get? sh := opt_arg seen "shadow_name" string_arg in
       get? _ := ensure (negb (given pub && on priv)) in
       Some (mk_serde off pub priv a ser de fwd d sh).
Definition serde_table : list (string * form) :=
    [("off", Alone); ("public", Place); ("private", Switch); ("attributes", Attributes);
     ("serialize", Switch); ("deserialize", Switch); ("forward_attrs", Paths); ("default", Value);
     ("shadow_name", Text)].
Lemma given_on {A} (o : option A) : given o = match o with Some a => negb false | None => false end.
Proof. destruct o; reflexivity. Qed.
Lemma on_on (o : option bool) : on o = match o with Some a => negb (negb a) | None => false end.
Proof. destruct o as [[]|]; reflexivity. Qed.
Lemma serde_seen : exact_seen serde_names serde_table [On "public" "private"] serde_body.
Proof.
  intros seen P. rewrite (agrees_cells _ _ _ _ P). unfold serde_body. split.
  - intros H. opened H. match type of H with obind (ensure ?b) _ <> _ => destruct b eqn:K; [|contradiction] end.
    split; [cells P|]. intros x [<-|[]]. rewrite given_on, on_on in K.
    apply (proj1 (not_both _ _ _ _ (on_opt _ _ _ _ _ _ P place_honest O0) (on_opt _ _ _ _ _ _ P bool_honest O1))). exact K.
  - intros [F R]. spread F. fill P. match goal with |- obind (ensure ?b) _ <> _ => assert (K : b = true) end.
    { rewrite given_on, on_on.
      apply (proj2 (not_both _ _ _ _ (on_opt _ _ _ _ _ _ P place_honest O0) (on_opt _ _ _ _ _ _ P bool_honest O1))).
      apply (R (On "public" "private")). left. reflexivity. }
    rewrite K. discriminate.
Qed.
Lemma serde_exact : exact serde_arg Serde.
Proof.
  eapply nesting_exact; [|exact serde_seen|exact (name_exact (fun w n => mk_serde (se_off w) (se_public w) (se_private w) (se_attributes w) (se_serialize w)
               (se_deserialize w) (se_forward_attrs w) (se_default w) (Some n)))|split; [auto|discriminate]]; reflexivity.
Qed.
Lemma serde_honest : honest serde_arg se_off.
Proof.
  eapply (nesting_honest _ _ _ _ _ _ se_off); [|exact serde_seen| | | |]; [reflexivity| | | |].
  - simpl. auto.
  - intros seen a H. unfold serde_body in H. destruct (flag seen "off") as [b|] eqn:O; [cbn [obind] in H|discriminate].
    repeat match type of H with obind (opt_arg ?s ?n ?f) _ = Some _ => destruct (opt_arg s n f); [cbn [obind] in H|discriminate] end.
    match type of H with obind (ensure ?b) _ = _ => destruct b; [|discriminate] end.
    injection H as <-. apply (given_flag _ _ _ O).
  - intros a ls b H. destruct (literal_name ls); [|discriminate]. injection H as <-. reflexivity.
  - intros a Q. injection Q as <-. reflexivity.
Qed.
#[export] Hint Resolve helper_exact getter_exact setter_exact struct_builder_exact field_builder_exact fallible_exact
  serde_exact : grammar.

(** ** The attributes *)
Lemma no_lits items : literals items = [] -> non_literals items = items.
Proof. induction items as [|[s|m] l IH]; simpl; intros L; [reflexivity|discriminate|]. rewrite IH; auto. Qed.
Lemma collect_no_lits known items seen : collect known [] items = Some seen ->
  literals items = [] /\ non_literals items = items.
Proof. intros C. apply collect_nil in C. destruct C as (ms & -> & _). apply lits_metas. Qed.
Lemma taken_grammatical l rules cs : taken l rules false cs <-> grammatical l rules cs.
Proof.
  unfold taken, grammatical. rewrite Forall_forall. split.
  - intros (R & _ & T & X). split; [|auto]. intros c I. destruct (R c I) as [[E _]|R']; [discriminate|exact R'].
  - intros (R & T & X). split; [auto|]. split; [|auto]. intros TW. inversion TW as [l1 a l2 b l3 S1 S2 Q]; subst cs.
    destruct (R a) as (n & fm & r & _ & A & _); [apply in_app_iff; right; left; reflexivity|].
    destruct S1 as (s & ->). inversion A.
Qed.
Lemma table_exact {A} known l rules (k : list (string * smeta) -> option A) cs :
  tidy known l rules = true -> exact_seen known l rules k ->
  (grammatical l rules cs <->
   exists items seen, all_some parse_nested cs = Some items /\ collect known [] items = Some seen /\ k seen <> None).
Proof.
  intros T K. rewrite <- taken_grammatical. split.
  - intros H. destruct (core_complete known l rules k T K false cs H) as (items & seen & AS & C & N & S).
    destruct S as [S|[S _]]; [|discriminate]. rewrite (no_lits _ S) in C. eauto.
  - intros (items & seen & AS & C & N). destruct (collect_no_lits _ _ _ C) as [L NL].
    apply (core_sound known l rules k T K false cs items seen AS); [rewrite NL; exact C|exact N|left; exact L].
Qed.
Definition key (a : argname) : string :=
  match a with
  | NPublic => "public" | NPrivate => "private" | NCopy => "copy" | NClone => "clone" | NLazy => "lazy"
  | NOptional => "optional" | NInnerMut => "inner_mut" | NFallible => "fallible" | NLock => "lock"
  | NSync => "sync" | NAsync => "r#async" | NMode => "mode" | NSerde => "serde" | NRc => "rc"
  end.
Definition rules_for (conflicts : list (string * list (argname * argname))) : list rule :=
  map (fun p => On (key (fst p)) (key (snd p))) (flat_map snd conflicts).
Lemma struct_rules_for x : In x (rules_for struct_conflicts) <-> In x struct_rules.
Proof. unfold rules_for, struct_rules, common_rules. simpl. tauto. Qed.
Lemma field_rules_for x : In x (rules_for field_conflicts) <-> In x field_rules.
Proof. unfold rules_for, field_rules, common_rules. simpl. tauto. Qed.
Lemma rules_harmonious conflicts en seen :
  (forall g ps a b, In (g, ps) conflicts -> In (a, b) ps ->
     (en a = true <-> on_seen (key a) seen) /\ (en b = true <-> on_seen (key b) seen)) ->
  (harmonious conflicts en <-> forall x, In x (rules_for conflicts) -> ~ broken_seen seen x).
Proof.
  intros H. unfold harmonious, clash, rules_for. split.
  - intros R x I. apply in_map_iff in I. destruct I as ([a b] & <- & I). apply in_flat_map in I.
    destruct I as ([g ps] & J & I). simpl in I. intros [X Y]. destruct (H g ps a b J I) as [Ha Hb].
    apply (R g ps J). exists a, b. simpl in X, Y. tauto.
  - intros R g ps J (a & b & I & X & Y). destruct (H g ps a b J I) as [Ha Hb].
    apply (R (On (key a) (key b))); [|simpl; tauto]. apply in_map_iff. exists (a, b). split; [reflexivity|].
    apply in_flat_map. exists (g, ps). auto.
Qed.
Lemma iff_eq (a b : bool) P : a = b -> (b = true <-> P) -> (a = true <-> P).
Proof. intros ->. auto. Qed.
Ltac switch P := solve
  [ eapply iff_eq; [|eapply on_opt; [exact P|exact bool_honest|eassumption]]; simpl;
    match goal with |- match ?o with _ => _ end = _ => destruct o as [[]|]; reflexivity end
  | eapply iff_eq; [|eapply on_opt; [exact P|exact place_honest|eassumption]]; simpl;
    match goal with |- match ?o with _ => _ end = _ => destruct o; reflexivity end
  | eapply iff_eq; [|eapply on_opt; [exact P|exact mode_honest|eassumption]]; simpl;
    match goal with |- match ?o with _ => _ end = _ => destruct o; reflexivity end
  | eapply iff_eq; [|eapply on_opt; [exact P|exact helper_honest|eassumption]]; simpl; unfold said;
    match goal with |- context [match ?o with _ => _ end] => destruct o as [[[] ? ? ? ?]|]; reflexivity end
  | eapply iff_eq; [|eapply on_opt; [exact P|exact fallible_honest|eassumption]]; simpl;
    match goal with |- context [match ?o with _ => _ end] => destruct o as [[[] ?]|]; reflexivity end
  | eapply iff_eq; [|eapply on_opt; [exact P|exact serde_honest|eassumption]]; simpl;
    match goal with |- context [match ?o with _ => _ end] => destruct o as [[[] ? ? ? ? ? ? ? ?]|]; reflexivity end ].

Lemma sargs_cells : exact_seen struct_names struct_table [] sargs_of.
Proof. unfold sargs_of. chain. Qed.
Lemma sargs_enabled seen s a : proper struct_names seen -> sargs_of seen = Some s ->
  (enabled_s s a = true <-> on_seen (key a) seen).
Proof.
  intros P H. pose proof (sargs_of_inv _ _ H) as Q. repeat match goal with X : _ /\ _ |- _ => destruct X end.
  destruct a; simpl enabled_s; simpl key; switch P.
Qed.
Definition struct_body (seen : list (string * smeta)) : option sargs :=
  get? s := sargs_of seen in
  get? _ := ensure (match sargs_errors s with [] => true | _ => false end) in Some s.
Lemma agrees_rules l rules seen : agrees l rules seen <-> agrees l [] seen /\ forall x, In x rules -> ~ broken_seen seen x.
Proof.
  unfold agrees. split; [intros [A B]; split; [split; [exact A|intros x []]|exact B]|]. intros [[A _] B]. auto.
Qed.
Lemma no_errors_bool {A} (l : list A) : (match l with [] => true | _ => false end) = true <-> l = [].
Proof. destruct l; split; congruence. Qed.
Lemma struct_seen : exact_seen struct_names struct_table struct_rules struct_body.
Proof.
  intros seen P. rewrite agrees_rules, <- (sargs_cells seen P). unfold struct_body.
  destruct (sargs_of seen) as [s|] eqn:S; cbn [obind]; [|split; [contradiction|intros [X _]; exact X]].
  assert (E : sargs_errors s = [] <-> forall x, In x struct_rules -> ~ broken_seen seen x).
  { rewrite struct_no_errors.
    rewrite (rules_harmonious struct_conflicts (enabled_s s) seen) by (intros; split; apply (sargs_enabled seen s _ P S)).
    split; intros H x I; apply H, struct_rules_for, I. }
  rewrite <- E, <- (no_errors_bool (sargs_errors s)).
  destruct (sargs_errors s); simpl; split; intuition congruence.
Qed.
Lemma features_seen ft seen sync async w :
  (on sync = true <-> on_seen "sync" seen) -> (on async = true <-> on_seen "r#async" seen) ->
  (match w with Some w => negb (se_off w) | None => false end = true <-> on_seen "serde" seen) ->
  (features_ok ft sync async w = true <->
   (on_seen "sync" seen -> ft_sync ft = true) /\ (on_seen "r#async" seen -> ft_async ft = true) /\
   (on_seen "serde" seen -> ft_serde ft = true)).
Proof.
  intros <- <- <-. unfold features_ok. rewrite !andb_true_iff, !orb_true_iff, !negb_true_iff, <- !not_true_iff_false.
  set (x := match w with Some _ => _ | None => _ end). destruct (on sync), (on async), x, (ft_sync ft), (ft_async ft), (ft_serde ft);
    intuition congruence.
Qed.
Lemma on_linked known l rules cs items seen n : tidy known l rules = true -> all_some parse_nested cs = Some items ->
  collect known [] items = Some seen -> segment_ok n = true -> (on_in n cs <-> on_seen n seen) /\ (given_in n cs <-> assoc n seen <> None).
Proof.
  intros T AS C S. destruct (collect_no_lits _ _ _ C) as [_ NL]. rewrite <- NL in C.
  destruct (linked known l rules T cs items seen AS C) as (_ & L1 & _ & L3). split; split.
  - intros (c & r & K & X & Y). destruct (L3 n c r S K X) as (m & E & <-). exists m. auto.
  - intros (m & E & Y). destruct (L1 n m E) as (c & K & _ & X). exists c, (rest m). auto.
  - intros (c & K & r & X). destruct (L3 n c r S K X) as (m & E & _). congruence.
  - intros N. apply not_none in N. destruct N as (m & E). destruct (L1 n m E) as (c & K & _ & X). exists c. split; [exact K|].
    exists (rest m). exact X.
Qed.
Lemma seen_proper known l rules cs items seen : tidy known l rules = true -> all_some parse_nested cs = Some items ->
  collect known [] items = Some seen -> proper known seen.
Proof.
  intros T AS C. destruct (collect_no_lits _ _ _ C) as [_ NL]. rewrite <- NL in C.
  apply (linked known l rules T cs items seen AS C).
Qed.
Lemma tidy_struct : tidy struct_names struct_table struct_rules = true.
Proof. reflexivity. Qed.
Theorem struct_grammar ft ts :
  read_struct ft ts <> None <->
  exists cs, arguments cs ts /\ grammatical struct_table struct_rules cs /\ featured ft cs.
Proof.
  assert (FE : forall cs items seen s, all_some parse_nested cs = Some items -> collect struct_names [] items = Some seen ->
    sargs_of seen = Some s -> (features_ok ft (s_mode_sync s) (s_mode_async s) (s_serde s) = true <-> featured ft cs)).
  { intros cs items seen s AS C S. pose proof (seen_proper _ _ _ _ _ _ tidy_struct AS C) as P.
    rewrite (features_seen ft seen). 
    - unfold featured. rewrite !(fun n H => proj1 (on_linked _ _ _ cs items seen n tidy_struct AS C H)) by reflexivity. reflexivity.
    - pose proof (sargs_enabled seen s NSync P S) as E. simpl in E. rewrite <- E. unfold on. destruct (s_mode_sync s) as [[]|]; reflexivity.
    - pose proof (sargs_enabled seen s NAsync P S) as E. simpl in E. rewrite <- E. unfold on. destruct (s_mode_async s) as [[]|]; reflexivity.
    - pose proof (sargs_enabled seen s NSerde P S) as E. simpl in E. rewrite <- E. destruct (s_serde s) as [w|]; [destruct (se_off w)|]; reflexivity. }
  split.
  - intros H. apply not_none in H. destruct H as (s & H).
    destruct (read_struct_inv _ _ _ H) as (cs & items & seen & A & AS & C & S & E & F).
    exists cs. split; [exact A|]. split; [|apply (FE cs items seen s AS C S); exact F].
    apply (table_exact _ _ _ _ cs tidy_struct struct_seen). exists items, seen. split; [exact AS|]. split; [exact C|].
    unfold struct_body. rewrite S. cbn [obind]. rewrite E. discriminate.
  - intros (cs & A & G & F). apply (table_exact _ _ _ _ cs tidy_struct struct_seen) in G.
    destruct G as (items & seen & AS & C & N). unfold read_struct. rewrite (arguments_list _ _ A), AS. cbn [obind].
    rewrite C. cbn [obind]. unfold struct_body in N. destruct (sargs_of seen) as [s|] eqn:S; [cbn [obind] in *|contradiction].
    destruct (sargs_errors s); [|contradiction]. cbn [ensure obind] in *.
    apply (FE cs items seen s AS C S) in F. rewrite F. discriminate.
Qed.

Lemma field_cells i v t a : exact_seen field_names field_table [] (field_of i v t a).
Proof. unfold field_of. chain. Qed.
Lemma field_enabled i v t a seen f n : proper field_names seen -> field_of i v t a seen = Some f -> n <> NRc ->
  (enabled_f f n = true <-> on_seen (key n) seen).
Proof.
  intros P H R. pose proof (field_of_inv _ _ _ _ _ _ H) as Q. repeat match goal with X : _ /\ _ |- _ => destruct X end.
  destruct n; try contradiction; simpl enabled_f; simpl key; switch P.
Qed.
Definition field_body i v t a (seen : list (string * smeta)) : option field :=
  get? f := field_of i v t a seen in
  get? _ := ensure (match field_errors f with [] => true | _ => false end) in Some f.
Lemma field_seen i v t a : exact_seen field_names field_table field_rules (field_body i v t a).
Proof.
  intros seen P. rewrite agrees_rules, <- (field_cells i v t a seen P). unfold field_body.
  destruct (field_of i v t a seen) as [s|] eqn:S; cbn [obind]; [|split; [contradiction|intros [X _]; exact X]].
  assert (E : field_errors s = [] <-> forall x, In x field_rules -> ~ broken_seen seen x).
  { rewrite field_no_errors.
    rewrite (rules_harmonious field_conflicts (enabled_f s) seen).
    - split; intros H x I; apply H, field_rules_for, I.
    - intros g ps a0 b I J. assert (N : a0 <> NRc /\ b <> NRc).
      { simpl in I. repeat (destruct I as [I|I]; [injection I as <- <-; simpl in J;
          repeat (destruct J as [J|J]; [injection J as <- <-; split; discriminate|]); destruct J|]). destruct I. }
      split; apply (field_enabled i v t a seen s _ P S); tauto. }
  rewrite <- E, <- (no_errors_bool (field_errors s)).
  destruct (field_errors s); simpl; split; intuition congruence.
Qed.
Lemma tidy_field : tidy field_names field_table field_rules = true.
Proof. reflexivity. Qed.
(** A bare [#[fieldx]] switches nothing on. *)
Lemma marked_enabled l f n : enabled_f (marked l f) n = enabled_f f n.
Proof.
  unfold marked, mark_implicitly. destruct (existsb is_word l), (f_lazy f) as [h|] eqn:E; destruct n; simpl; rewrite ?E; reflexivity.
Qed.
Lemma marked_errors l f : field_errors (marked l f) = [] <-> field_errors f = [].
Proof.
  rewrite !field_no_errors. unfold harmonious, clash. split; intros H g ps I (a & b & J & X & Y); apply (H g ps I);
    exists a, b; rewrite ?marked_enabled in *; auto.
Qed.
Theorem field_grammar ft i v t a l :
  read_field ft i v t a l <> None <->
  exists cs, gathered l cs /\ grammatical field_table field_rules cs /\ featured ft cs.
Proof.
  assert (FE : forall cs items seen f, all_some parse_nested cs = Some items -> collect field_names [] items = Some seen ->
    field_of i v t a seen = Some f ->
    (features_ok ft (f_mode_sync (marked l f)) (f_mode_async (marked l f)) (f_serde (marked l f)) = true <-> featured ft cs)).
  { intros cs items seen f AS C S. pose proof (seen_proper _ _ _ _ _ _ tidy_field AS C) as P.
    destruct (marked_same l f) as (-> & -> & _ & _ & _ & _ & _ & _ & _ & _ & ->).
    rewrite (features_seen ft seen).
    - unfold featured. rewrite !(fun n H => proj1 (on_linked _ _ _ cs items seen n tidy_field AS C H)) by reflexivity. reflexivity.
    - pose proof (field_enabled _ _ _ _ seen f NSync P S ltac:(discriminate)) as E. simpl in E. rewrite <- E. unfold on. destruct (f_mode_sync f) as [[]|]; reflexivity.
    - pose proof (field_enabled _ _ _ _ seen f NAsync P S ltac:(discriminate)) as E. simpl in E. rewrite <- E. unfold on. destruct (f_mode_async f) as [[]|]; reflexivity.
    - pose proof (field_enabled _ _ _ _ seen f NSerde P S ltac:(discriminate)) as E. simpl in E. rewrite <- E. destruct (f_serde f) as [w|]; [destruct (se_off w)|]; reflexivity. }
  split.
  - intros H. apply not_none in H. destruct H as (f & H).
    destruct (read_field_inv _ _ _ _ _ _ _ H) as (cs & items & seen & f0 & A & AS & C & S & -> & E & F).
    apply marked_errors in E.
    exists cs. split; [exact A|]. split; [|apply (FE cs items seen f0 AS C S); exact F].
    apply (table_exact _ _ _ _ cs tidy_field (field_seen i v t a)). exists items, seen. split; [exact AS|]. split; [exact C|].
    unfold field_body. rewrite S. cbn [obind]. rewrite E. discriminate.
  - intros (cs & A & G & F). apply (table_exact _ _ _ _ cs tidy_field (field_seen i v t a)) in G.
    destruct G as (items & seen & AS & C & N). unfold read_field. rewrite (gathered_items _ _ A), AS. cbn [obind].
    rewrite C. cbn [obind]. unfold field_body in N. destruct (field_of i v t a seen) as [f|] eqn:S; [cbn [obind] in *|contradiction].
    destruct (field_errors f) eqn:E; [|contradiction].
    change (if existsb is_word l then mark_implicitly f else f) with (marked l f). cbv zeta.
    rewrite (proj2 (marked_errors l f) E). cbn [ensure obind].
    apply (FE cs items seen f AS C S) in F. rewrite F. discriminate.
Qed.

(** ** What the arguments that make a method say *)
Lemma with_helper {A} seen (k : helper -> option A) (base : A -> helper) :
  (forall h a, k h = Some a -> base a = h) -> forall a, (get? h := helper_of seen in k h) = Some a ->
  (h_off (base a) = true <-> assoc "off" seen <> None).
Proof.
  intros H a E. destruct (helper_of seen) as [h|] eqn:O; [cbn [obind] in E|discriminate].
  rewrite (H h a E). apply (helper_off _ _ O).
Qed.
Ltac tail :=
  let E := fresh "E" in intros ? ? E;
  repeat match type of E with
  | obind ?x _ = Some _ => destruct x; [cbn [obind] in E|discriminate]
  | (let _ := _ in _) = _ => cbv zeta in E
  end; injection E as <-; reflexivity.
Lemma getter_honest : honest accessor_arg (fun a => h_off (a_base a)).
Proof.
  eapply nesting_honest; [|exact getter_seen| | | |]; [reflexivity| | | |].
  - simpl. auto.
  - intros seen. apply with_helper. tail.
  - intros a ls b H. destruct (literal_name ls); [|discriminate]. injection H as <-. reflexivity.
  - intros a Q. injection Q as <-. reflexivity.
Qed.
Lemma setter_honest : honest setter_arg (fun a => h_off (st_base a)).
Proof.
  eapply nesting_honest; [|exact setter_seen| | | |]; [reflexivity| | | |].
  - simpl. auto.
  - intros seen. apply with_helper. tail.
  - intros a ls b H. destruct (literal_name ls); [|discriminate]. injection H as <-. reflexivity.
  - intros a Q. injection Q as <-. reflexivity.
Qed.
Lemma struct_builder_honest : honest (builder_arg true) (fun b => h_off (b_base b)).
Proof.
  eapply nesting_honest; [|exact struct_builder_seen| | | |]; [reflexivity| | | |].
  - simpl. auto.
  - intros seen. apply with_helper. tail.
  - intros a ls b H. destruct (literal_name ls); [|discriminate]. injection H as <-. reflexivity.
  - intros a Q. injection Q as <-. reflexivity.
Qed.
Lemma field_builder_honest : honest (builder_arg false) (fun b => h_off (b_base b)).
Proof.
  eapply nesting_honest; [|exact field_builder_seen| | | |]; [reflexivity| | | |].
  - simpl. auto.
  - intros seen. apply with_helper. tail.
  - intros a ls b H. destruct (literal_name ls); [|discriminate]. injection H as <-. reflexivity.
  - intros a Q. injection Q as <-. reflexivity.
Qed.
Definition off_of (o : option helper) : option bool := option_map (fun h => negb (h_off h)) o.
Lemma said_off o : said o = off_of o.
Proof. destruct o as [[[] ? ? ? ?]|]; reflexivity. Qed.
Lemma says_seen {A} known seen cs n (f : smeta -> option A) off o (v : option bool) :
  proper known seen -> honest f off -> opt_arg seen n f = Some o ->
  (on_in n cs <-> on_seen n seen) -> (given_in n cs <-> assoc n seen <> None) ->
  v = option_map (fun a => negb (off a)) o -> says n cs v.
Proof.
  intros P H O Hon Hgi ->. pose proof (given_opt _ _ _ _ O) as G. pose proof (on_opt _ _ _ _ _ _ P H O) as N.
  unfold says. rewrite Hon, Hgi, <- G, <- N. destruct o as [x|]; simpl; [destruct (off x)|]; simpl; intuition congruence.
Qed.
Lemma struct_says ft ts s cs n get : read_struct ft ts = Some s -> arguments cs ts -> In (n, get) struct_helpers ->
  says n cs (said (get s)).
Proof.
  intros H A I. destruct (read_struct_inv _ _ _ H) as (cs' & items & seen & A' & AS & C & S & _ & _).
  rewrite (arguments_fun _ _ _ A A'). pose proof (seen_proper _ _ _ _ _ _ tidy_struct AS C) as P.
  pose proof (fun n => on_linked _ _ _ cs' items seen n tidy_struct AS C) as L.
  pose proof (sargs_of_inv _ _ S) as Q. repeat match goal with X : _ /\ _ |- _ => destruct X end.
  rewrite said_off. simpl in I.
  repeat (destruct I as [I|I]; [injection I as <- <-; match goal with |- says ?n _ _ => destruct (L n eq_refl) as [L1 L2] end;
    first [ eapply (says_seen _ seen cs' _ helper_arg h_off); [exact P|exact helper_honest|eassumption|exact L1|exact L2|reflexivity]
          | eapply (says_seen _ seen cs' _ accessor_arg); [exact P|exact getter_honest|eassumption|exact L1|exact L2|destruct (s_accessor s); reflexivity]
          | eapply (says_seen _ seen cs' _ setter_arg); [exact P|exact setter_honest|eassumption|exact L1|exact L2|destruct (s_setter s); reflexivity]
          | eapply (says_seen _ seen cs' _ (builder_arg true)); [exact P|exact struct_builder_honest|eassumption|exact L1|exact L2|destruct (s_builder s); reflexivity] ]|]).
  destruct I.
Qed.
Lemma field_says ft i v t a l f cs n get : read_field ft i v t a l = Some f -> gathered l cs -> ~ In FWord l ->
  In (n, get) field_helpers -> says n cs (said (get f)).
Proof.
  intros H A W I. destruct (read_field_inv _ _ _ _ _ _ _ H) as (cs' & items & seen & f0 & A' & AS & C & S & E & _ & _).
  assert (AS' : all_some parse_nested cs = Some items) by (rewrite <- (gathered_items _ _ A), (gathered_items _ _ A'); exact AS).
  assert (M : f = f0).
  { rewrite E. unfold marked. destruct (existsb is_word l) eqn:X; [|reflexivity]. exfalso. apply W.
    apply existsb_exists in X. destruct X as ([| |] & J & X); try discriminate. exact J. }
  clear E. subst f0. clear A' AS cs'. pose proof (seen_proper _ _ _ _ _ _ tidy_field AS' C) as P.
  pose proof (fun n => on_linked _ _ _ cs items seen n tidy_field AS' C) as L.
  pose proof (field_of_inv _ _ _ _ _ _ S) as Q. repeat match goal with X : _ /\ _ |- _ => destruct X end.
  rewrite said_off. simpl in I.
  repeat (destruct I as [I|I]; [injection I as <- <-; match goal with |- says ?n _ _ => destruct (L n eq_refl) as [L1 L2] end;
    first [ eapply (says_seen _ seen cs _ helper_arg h_off); [exact P|exact helper_honest|eassumption|exact L1|exact L2|reflexivity]
          | eapply (says_seen _ seen cs _ accessor_arg); [exact P|exact getter_honest|eassumption|exact L1|exact L2|destruct (f_accessor f); reflexivity]
          | eapply (says_seen _ seen cs _ setter_arg); [exact P|exact setter_honest|eassumption|exact L1|exact L2|destruct (f_setter f); reflexivity]
          | eapply (says_seen _ seen cs _ (builder_arg false)); [exact P|exact field_builder_honest|eassumption|exact L1|exact L2|destruct (f_builder f); reflexivity] ]|]).
  destruct I.
Qed.
