(** Proofs about the macro fxhelper and the checks it emits. *)
From Coq Require Import List Bool String Arith Lia Permutation.
From Verif Require Import FxhSpec FxhModel.
Import ListNotations.
Open Scope string_scope.
Open Scope list_scope.

Definition declared (d : hdecl) : list (string * option string) := map (fun f => (hf_name f, hf_exclusive f)) (hd_fields d).
Definition is_set (v : string -> option fval) (n : string) : bool :=
  match v n with Some (FFlag b) => b | Some (FOption b) => b | None => false end.

(** ** The groups *)
Fixpoint names_at (g : string) (m : list hgroup) : list string :=
  match m with [] => [] | (k, l) :: r => if String.eqb k g then map fst l else names_at g r end.
Lemma push_at : forall h g x m, names_at h (push g x m) = names_at h m ++ (if String.eqb g h then [fst x] else []).
Proof.
  intros h g x m. induction m as [|[k l] r IH]; cbn [push names_at].
  - destruct (String.eqb g h); reflexivity.
  - destruct (String.eqb k g) eqn:K; cbn [names_at].
    + apply String.eqb_eq in K. subst k. destruct (String.eqb g h) eqn:G; [apply map_app|]. symmetry. apply app_nil_r.
    + destruct (String.eqb k h) eqn:H; [|exact IH]. destruct (String.eqb g h) eqn:G; [|symmetry; apply app_nil_r].
      apply String.eqb_eq in H, G. subst. rewrite String.eqb_refl in K. discriminate.
Qed.
Lemma push_keys : forall g x m k, In k (map fst (push g x m)) <-> In k (map fst m) \/ k = g.
Proof.
  intros g x m k. induction m as [|[j l] r IH]; cbn [push map fst In].
  - intuition.
  - destruct (String.eqb j g) eqn:K; cbn [map fst In].
    + apply String.eqb_eq in K. subst j. intuition.
    + rewrite IH. intuition.
Qed.
Lemma push_nodup : forall g x m, NoDup (map fst m) -> NoDup (map fst (push g x m)).
Proof.
  intros g x m. induction m as [|[j l] r IH]; cbn [push map fst]; intro N.
  - constructor; [intros []|constructor].
  - inversion N as [|? ? N1 N2]; subst. destruct (String.eqb j g) eqn:K; cbn [map fst]; constructor; auto.
    rewrite push_keys. intros [I| ->]; [exact (N1 I)|]. rewrite String.eqb_refl in K. discriminate.
Qed.
Lemma push_in : forall g x m b y, In b (push g x m) -> In y (snd b) -> y = x \/ exists b', In b' m /\ In y (snd b').
Proof.
  intros g x m b y. induction m as [|[j l] r IH]; cbn [push].
  - intros [<-|[]] [<-|[]]. left. reflexivity.
  - destruct (String.eqb j g).
    + intros [<-|I] Y.
      * apply in_app_iff in Y as [Y|[<-|[]]]; [|left; reflexivity]. right. exists (j, l). split; [left; reflexivity|exact Y].
      * right. exists b. split; [right; exact I|exact Y].
    + intros [<-|I] Y; [right; exists (j, l); split; [left; reflexivity|exact Y]|].
      destruct (IH I Y) as [E|(b' & I1 & I2)]; [left; exact E|]. right. exists b'. split; [right; exact I1|exact I2].
Qed.
Lemma push_keeps : forall g x m b y, In b m -> In y (snd b) -> exists b', In b' (push g x m) /\ In y (snd b').
Proof.
  intros g x m b y. induction m as [|[j l] r IH]; cbn [push In]; [intros []|]. intros [<-|I] Y.
  - destruct (String.eqb j g); [exists (j, l ++ [x])|exists (j, l)]; cbn [In snd]; (split; [left; reflexivity|]); [apply in_app_iff; left; exact Y|exact Y].
  - destruct (String.eqb j g); [exists b; cbn [In]; auto|]. destruct (IH I Y) as (b' & I1 & I2). exists b'. cbn [In]. auto.
Qed.
Lemma push_has : forall g x m, exists b, In b (push g x m) /\ In x (snd b).
Proof.
  intros g x m. induction m as [|[j l] r (b & I1 & I2)]; cbn [push].
  - exists (g, [x]). cbn. auto.
  - destruct (String.eqb j g); [exists (j, l ++ [x]); cbn [In snd]; split; [left; reflexivity|apply in_app_iff; right; left; reflexivity]|].
    exists b. cbn [In]. auto.
Qed.
Lemma gather_at : forall fs m m', gather fs m = Some m' -> forall h,
  names_at h m' = names_at h m ++ map fst (filter (in_group h) (map (fun f => (hf_name f, hf_exclusive f)) fs)).
Proof.
  induction fs as [|f r IH]; intros m m' H h; cbn [gather] in H; cbn [map filter].
  - injection H as <-. symmetry. apply app_nil_r.
  - unfold in_group at 1. cbn [snd]. destruct (hf_exclusive f) as [g|]; [|exact (IH _ _ H h)].
    destruct (check_of (hf_ty f)); [|discriminate]. rewrite (IH _ _ H h), push_at, <- app_assoc. cbn [fst].
    destruct (String.eqb g h); reflexivity.
Qed.
Lemma gather_nodup : forall fs m m', gather fs m = Some m' -> NoDup (map fst m) -> NoDup (map fst m').
Proof.
  induction fs as [|f r IH]; intros m m' H N; cbn [gather] in H.
  - injection H as <-. exact N.
  - destruct (hf_exclusive f) as [g|]; [|exact (IH _ _ H N)]. destruct (check_of (hf_ty f)); [|discriminate]. exact (IH _ _ H (push_nodup _ _ _ N)).
Qed.
Lemma gather_in : forall fs m m', gather fs m = Some m' -> forall b y, In b m' -> In y (snd b) ->
  (exists b', In b' m /\ In y (snd b')) \/ exists f g, In f fs /\ hf_exclusive f = Some g /\ hf_name f = fst y /\ check_of (hf_ty f) = Some (snd y).
Proof.
  induction fs as [|f r IH]; intros m m' H b y I Y; cbn [gather] in H.
  - injection H as <-. left. exists b. auto.
  - destruct (hf_exclusive f) as [g|] eqn:X.
    + destruct (check_of (hf_ty f)) as [c|] eqn:C; [|discriminate]. destruct (IH _ _ H b y I Y) as [(b' & I1 & I2)|(f' & g' & I1 & I2)].
      * destruct (push_in _ _ _ _ _ I1 I2) as [->|L]; [|left; exact L]. right. exists f, g. cbn [In fst snd]. auto.
      * right. exists f', g'. split; [right; exact I1|exact I2].
    + destruct (IH _ _ H b y I Y) as [L|(f' & g' & I1 & I2)]; [left; exact L|]. right. exists f', g'. split; [right; exact I1|exact I2].
Qed.
Lemma gather_has : forall fs m m', gather fs m = Some m' ->
  (forall b y, In b m -> In y (snd b) -> exists b', In b' m' /\ In y (snd b')) /\
  (forall f g c, In f fs -> hf_exclusive f = Some g -> check_of (hf_ty f) = Some c -> exists b', In b' m' /\ In (hf_name f, c) (snd b')).
Proof.
  induction fs as [|f r IH]; intros m m' H; cbn [gather] in H.
  - injection H as <-. split; [intros b y I Y; exists b; auto|intros f g c []].
  - destruct (hf_exclusive f) as [g|] eqn:X.
    + destruct (check_of (hf_ty f)) as [c|] eqn:C; [|discriminate]. destruct (IH _ _ H) as [A B]. split.
      * intros b y I Y. destruct (push_keeps g (hf_name f, c) _ _ _ I Y) as (b1 & I1 & Y1). exact (A _ _ I1 Y1).
      * intros f' g' c' [<-|I] X' C'; [|exact (B _ _ _ I X' C')]. rewrite C in C'. injection C' as <-.
        destruct (push_has g (hf_name f, c) m) as (b1 & I1 & Y1). exact (A _ _ I1 Y1).
    + destruct (IH _ _ H) as [A B]. split; [exact A|]. intros f' g' c' [<-|I] X' C'; [congruence|exact (B _ _ _ I X' C')].
Qed.
Lemma gather_some : forall fs m, (exists m', gather fs m = Some m') <->
  forall f, In f fs -> hf_exclusive f <> None -> exists p, hf_ty f = HPath p.
Proof.
  induction fs as [|f r IH]; intro m; cbn [gather].
  - split; [intros _ f []|intros _; eauto].
  - destruct (hf_exclusive f) as [g|] eqn:X.
    + destruct (hf_ty f) as [p|] eqn:T; cbn [check_of].
      * rewrite IH. split; intro A; [intros f' [<-|I]; [eauto|exact (A f' I)]|]. intros f' I. exact (A f' (or_intror I)).
      * split; [intros (m' & E); discriminate|]. intro A. destruct (A f (or_introl eq_refl)) as (p & P); [congruence|congruence].
    + rewrite IH. split; intro A; [intros f' [<-|I]; [congruence|exact (A f' I)]|]. intros f' I. exact (A f' (or_intror I)).
Qed.
Lemma expands_when : forall d, (exists e, expands d e) <-> forall f, In f (hd_fields d) -> hf_exclusive f <> None -> exists p, hf_ty f = HPath p.
Proof.
  intro d. rewrite <- (gather_some (hd_fields d) first_groups). split.
  - intros (e & m & gs & G & _). eauto.
  - intros (m & G). exists (emit d m), m, m. split; [exact G|]. split; [apply Permutation_refl|reflexivity].
Qed.
Lemma groups_members : forall d m, gather (hd_fields d) first_groups = Some m -> forall g, names_at g m = members (declared d) g.
Proof.
  intros d m G g. rewrite (gather_at _ _ _ G g). unfold members, declared. f_equal. cbn [names_at first_groups].
  rewrite String.eqb_sym. destruct (String.eqb g "visibility"); reflexivity.
Qed.
Lemma names_at_in : forall m g l, NoDup (map fst m) -> In (g, l) m -> names_at g m = map fst l.
Proof.
  induction m as [|[k j] r IH]; intros g l N I0; [destruct I0|]; destruct I0 as [E|I]; cbn [names_at].
  - injection E as <- <-. rewrite String.eqb_refl. reflexivity.
  - inversion N as [|? ? N1 N2]; subst. destruct (String.eqb k g) eqn:K; [|exact (IH _ _ N2 I)].
    apply String.eqb_eq in K. subst k. destruct N1. exact (in_map fst _ _ I).
Qed.
Lemma names_at_found : forall m g, names_at g m <> [] -> exists l, In (g, l) m /\ names_at g m = map fst l.
Proof.
  induction m as [|[k j] r IH]; intros g H; cbn [names_at] in *; [congruence|]. destruct (String.eqb k g) eqn:K.
  - apply String.eqb_eq in K. subst k. exists j. cbn. auto.
  - destruct (IH _ H) as (l & I & E). exists l. cbn. auto.
Qed.

(** ** The checks *)
Lemma type_in : forall n fs t, type_of n fs = Some t -> In (n, t) fs.
Proof.
  induction fs as [|[k u] r IH]; intros t H; cbn [type_of] in H; [discriminate|]. destruct (String.eqb k n) eqn:K.
  - apply String.eqb_eq in K. subst k. injection H as <-. left. reflexivity.
  - right. exact (IH _ H).
Qed.
Lemma can_tested : forall e v x, typed e v -> can_test e x = true -> tested v x = Some (is_set v (fst x)).
Proof.
  intros e v [n c] T H. unfold can_test in H. cbn [fst snd] in H. destruct (type_of n (em_fields e)) as [t|] eqn:E; [|discriminate].
  destruct (T _ _ (type_in _ _ _ E)) as [A B]. unfold tested, is_set. cbn [fst snd].
  destruct c; [destruct (A H) as [b ->]|destruct (B H) as [b ->]]; reflexivity.
Qed.
Lemma set_params_are : forall e v l, typed e v -> forallb (can_test e) l = true -> set_params v l = Some (filter (is_set v) (map fst l)).
Proof.
  intros e v l T. induction l as [|x r IH]; intro H; cbn [set_params map filter]; [reflexivity|].
  cbn [forallb] in H. apply andb_prop in H as [H1 H2]. rewrite (can_tested _ _ _ T H1), (IH H2). destruct (is_set v (fst x)); reflexivity.
Qed.
Lemma blocks_say : forall e v, typed e v -> forall l, forallb (fun b : hgroup => forallb (can_test e) (snd b)) l = true ->
  exists r, validate_blocks v l = Some r /\
    match r with
    | None => forall g cs, In (g, cs) l -> List.length (filter (is_set v) (map fst cs)) <= 1
    | Some (g, s) => exists cs, In (g, cs) l /\ s = filter (is_set v) (map fst cs) /\ 1 < List.length s
    end.
Proof.
  intros e v T l. induction l as [|[g cs] r IH]; intro H; cbn [validate_blocks].
  - exists None. split; [reflexivity|]. intros g cs [].
  - cbn [forallb snd] in H. apply andb_prop in H as [H1 H2]. rewrite (set_params_are _ _ _ T H1).
    destruct (Nat.ltb 1 (List.length (filter (is_set v) (map fst cs)))) eqn:L.
    + apply Nat.ltb_lt in L. eexists. split; [reflexivity|]. cbn. exists cs. auto.
    + apply Nat.ltb_ge in L. destruct (IH H2) as (x & E & X). exists x. split; [exact E|]. destruct x as [[g' s]|].
      * destruct X as (cs' & I & X). exists cs'. split; [right; exact I|exact X].
      * intros g' cs' [Y|I]; [injection Y as <- <-; exact L|exact (X _ _ I)].
Qed.
Definition own_says (own : string -> bool) (d : hdecl) : bool := match hd_validate d with Some f => own f | None => true end.
Lemma all_test : forall e, compiles e = true -> forallb (fun b : hgroup => forallb (can_test e) (snd b)) (em_blocks e) = true.
Proof. intros e H. unfold compiles in H. apply andb_prop in H as [H _]. apply andb_prop in H as [_ H]. exact H. Qed.
Lemma perm_keys : forall (m gs : list hgroup), Permutation m gs -> NoDup (map fst m) -> NoDup (map fst gs).
Proof. intros m gs P N. exact (Permutation_NoDup (Permutation_map fst P) N). Qed.
Lemma first_nodup : NoDup (map fst first_groups).
Proof. constructor; [intros []|constructor]. Qed.
Theorem judges : forall d e v own, expands d e -> compiles e = true -> typed e v ->
  exists r, validate_helper own e v = Some r /\ judged (declared d) (is_set v) (own_says own d) r.
Proof.
  intros d e v own (m & gs & G & P & E) C T. destruct (blocks_say e v T (em_blocks e) (all_test e C)) as (x & V & X).
  assert (M : forall g cs, In (g, cs) gs -> chosen (declared d) (is_set v) g = filter (is_set v) (map fst cs)).
  { intros g cs I. unfold chosen. rewrite <- (groups_members d m G g). f_equal.
    apply names_at_in; [exact (gather_nodup _ _ _ G first_nodup)|]. exact (Permutation_in _ (Permutation_sym P) I). }
  assert (B : em_blocks e = gs) by (subst e; reflexivity). assert (W : em_validate e = hd_validate d) by (subst e; reflexivity).
  unfold validate_helper. rewrite V, W. rewrite B in X. destruct x as [[g s]|].
  - destruct X as (cs & I & S1 & L). eexists. split; [reflexivity|]. cbn [judged]. unfold conflict. rewrite (M _ _ I), <- S1. auto.
  - assert (N : forall g, ~ conflict (declared d) (is_set v) g).
    { intros g K. unfold conflict in K. destruct (names_at_found m g) as (cs & I & Z).
      - intro Z. unfold chosen in K. rewrite <- (groups_members d m G g), Z in K. cbn in K. lia.
      - pose proof (Permutation_in _ P I) as I'. rewrite (M _ _ I') in K. pose proof (X _ _ I'). lia. }
    unfold own_says. destruct (hd_validate d) as [f|]; eexists; (split; [reflexivity|]); [|cbn; auto].
    destruct (own f) eqn:O; cbn; rewrite ?O; auto.
Qed.
Theorem accepts : forall d e v own, expands d e -> compiles e = true -> typed e v ->
  (validate_helper own e v = Some Fine <-> (forall g, ~ conflict (declared d) (is_set v) g) /\ own_says own d = true).
Proof.
  intros d e v own X C T. destruct (judges d e v own X C T) as (r & -> & J). split.
  - intro E. injection E as ->. exact J.
  - intros [A B]. destruct r as [|g s|]; [reflexivity| |]; cbn in J.
    + destruct J as [K _]. destruct (A _ K).
    + destruct J as [_ K]. congruence.
Qed.
(** Which group comes first is for the map to say. *)
Lemma compiles_any : forall d gs gs', Permutation gs gs' -> compiles (emit d gs) = true -> compiles (emit d gs') = true.
Proof.
  intros d gs gs' P C. unfold compiles in *. cbn [emit em_fields em_derives em_blocks em_attributes] in *.
  apply andb_prop in C as [C C4]. apply andb_prop in C as [C C3]. rewrite C. cbn [andb]. apply andb_true_intro. split.
  - rewrite forallb_forall in *. intros b I. exact (C3 b (Permutation_in _ (Permutation_sym P) I)).
  - exact C4.
Qed.
Theorem any_first : forall d e v own g, expands d e -> compiles e = true -> typed e v -> conflict (declared d) (is_set v) g ->
  exists e', expands d e' /\ compiles e' = true /\ typed e' v /\ validate_helper own e' v = Some (Clash g (chosen (declared d) (is_set v) g)).
Proof.
  intros d e v own g (m & gs & G & P & ->) C T K.
  assert (M : names_at g m = members (declared d) g) by exact (groups_members d m G g).
  destruct (names_at_found m g) as (cs & I & Z).
  { intro Z. unfold conflict, chosen in K. rewrite <- M, Z in K. cbn in K. lia. }
  pose proof (Permutation_in _ P I) as I'. destruct (in_split _ _ I') as (l1 & l2 & ->).
  set (gs' := (g, cs) :: l1 ++ l2). assert (P' : Permutation (l1 ++ (g, cs) :: l2) gs') by (apply Permutation_sym, Permutation_middle).
  exists (emit d gs'). pose proof (compiles_any d _ _ P' C) as C'. split; [|split; [exact C'|split; [exact T|]]].
  - exists m, gs'. split; [exact G|]. split; [exact (perm_trans P P')|reflexivity].
  - unfold validate_helper. unfold gs' at 1. cbn [emit em_blocks validate_blocks].
    pose proof (all_test _ C') as A. unfold gs' in A at 2. cbn [emit em_blocks forallb snd] in A. apply andb_prop in A as [A _].
    assert (T' : typed (emit d gs') v) by exact T.
    rewrite (set_params_are _ _ _ T' A). unfold conflict, chosen in K. rewrite <- M, Z in K.
    destruct (Nat.ltb 1 (List.length (filter (is_set v) (map fst cs)))) eqn:L; [|apply Nat.ltb_ge in L; lia].
    unfold chosen. rewrite <- M, Z. reflexivity.
Qed.

(** ** What compiles *)
Lemma no_twice_nodup : forall l, no_twice l = true <-> NoDup l.
Proof.
  induction l as [|x r IH]; cbn [no_twice]; [split; [constructor|reflexivity]|]. rewrite andb_true_iff, negb_true_iff, IH. split.
  - intros [A B]. constructor; [|exact B]. intro I. apply not_true_iff_false in A. apply A. apply existsb_exists. exists x. split; [exact I|apply String.eqb_refl].
  - intro N. inversion N as [|? ? N1 N2]; subst. split; [|exact N2]. apply not_true_iff_false. intro E. apply existsb_exists in E as (y & I & E).
    apply String.eqb_eq in E. subst y. exact (N1 I).
Qed.
Lemma type_found : forall fs n t, NoDup (map fst fs) -> In (n, t) fs -> type_of n fs = Some t.
Proof.
  induction fs as [|[k u] r IH]; intros n t N I0; [destruct I0|]; destruct I0 as [E|I]; cbn [type_of].
  - injection E as <- <-. rewrite String.eqb_refl. reflexivity.
  - inversion N as [|? ? N1 N2]; subst. destruct (String.eqb k n) eqn:K; [|exact (IH _ _ N2 I)].
    apply String.eqb_eq in K. subst k. destruct N1. exact (in_map fst _ _ I).
Qed.
(** A field that is in a group is a Flag by that name or an Option by any. *)
Definition testable (t : hty) : Prop := t = HPath ["Flag"] \/ exists p, t = HPath p /\ last_word p = "Option".
Definition optional_type (t : hty) : Prop := exists p, t = HPath p /\ last_word p = "Option".
Lemma testable_check : forall t, testable t <-> exists c, check_of t = Some c /\ has_method t c = true.
Proof.
  intro t. split.
  - intros [->|(p & -> & L)]; [exists IsPresent; split; reflexivity|]. exists IsSome. cbn [check_of has_method]. rewrite L. split; [|reflexivity].
    destruct (is_word p "Flag") eqn:W; [|reflexivity]. destruct p as [|x [|y r]]; try discriminate. apply String.eqb_eq in W. subst x. discriminate L.
  - intros (c & C & H). destruct t as [p|]; [|discriminate]. cbn [check_of] in C. injection C as <-. destruct (is_word p "Flag") eqn:W.
    + left. destruct p as [|x [|y r]]; try discriminate. apply String.eqb_eq in W. subst x. reflexivity.
    + right. exists p. split; [reflexivity|]. apply String.eqb_eq. exact H.
Qed.
Definition traits (d : hdecl) : list string := map last_word (hd_derives d).
Lemma nodup_last : forall (l : list string) x, NoDup (l ++ [x]) <-> NoDup l /\ ~ In x l.
Proof.
  intros l x. split.
  - intro N. pose proof (NoDup_remove l [] x N) as [A B]. rewrite app_nil_r in A, B. auto.
  - intros [A B]. apply (Permutation_NoDup (Permutation_cons_append l x)). constructor; assumption.
Qed.
Lemma derives_twice : forall d, NoDup (map last_word ([["FromMeta"]; ["Clone"]] ++ hd_derives d ++ getters_derive d)) <->
  NoDup (["FromMeta"; "Clone"] ++ traits d) /\ (In "Getters" (traits d) -> In ["Getters"] (hd_derives d)).
Proof.
  intro d. rewrite app_assoc, map_app. change (map last_word ([["FromMeta"]; ["Clone"]] ++ hd_derives d)) with (["FromMeta"; "Clone"] ++ traits d).
  unfold getters_derive. destruct (existsb (fun p => is_word p "Getters") (hd_derives d)) eqn:X.
  - cbn [map]. rewrite app_nil_r. apply existsb_exists in X as (p & I & W). destruct p as [|x [|y r]]; try discriminate.
    apply String.eqb_eq in W. subst x. split; [intro N; split; [exact N|intros _; exact I]|intros [N _]; exact N].
  - cbn [map]. change (last_word ["Getters"]) with "Getters". rewrite nodup_last. split.
    + intros [N Q]. split; [exact N|]. intro I. destruct Q. cbn. auto.
    + intros [N Q]. split; [exact N|]. intros [E|[E|I]]; try discriminate E. specialize (Q I). apply not_true_iff_false in X. apply X.
      apply existsb_exists. exists ["Getters"]. split; [exact Q|reflexivity].
Qed.
Theorem compiles_when : forall d e, expands d e ->
  (compiles e = true <->
   NoDup (common_options ++ map hf_name (hd_fields d)) /\
   (NoDup (["FromMeta"; "Clone"] ++ traits d) /\ (In "Getters" (traits d) -> In ["Getters"] (hd_derives d))) /\
   (forall f, In f (hd_fields d) -> hf_exclusive f <> None -> testable (hf_ty f)) /\
   (forall f, In f (hd_fields d) -> hf_name f = "attributes" -> optional_type (hf_ty f))).
Proof.
  intros d e (m & gs & G & P & ->). unfold compiles. rewrite !andb_true_iff, !no_twice_nodup.
  cbn [emit em_fields em_derives em_blocks em_attributes]. rewrite derives_twice.
  assert (F : map fst (common_fields ++ map (fun f => (hf_name f, hf_ty f)) (hd_fields d)) = common_options ++ map hf_name (hd_fields d)).
  { rewrite map_app, map_map. reflexivity. }
  rewrite F.
  assert (T : NoDup (common_options ++ map hf_name (hd_fields d)) -> forall f, In f (hd_fields d) ->
    type_of (hf_name f) (common_fields ++ map (fun f => (hf_name f, hf_ty f)) (hd_fields d)) = Some (hf_ty f)).
  { intros N f I. apply type_found; [rewrite F; exact N|]. apply in_app_iff. right. apply (in_map (fun f => (hf_name f, hf_ty f))). exact I. }
  split.
  - intros [[[N D] B] A]. split; [exact N|]. split; [exact D|]. split.
    + intros f I X. destruct (hf_exclusive f) as [g|] eqn:XE; [|congruence].
      destruct (proj1 (gather_some _ _) (ex_intro _ m G) f I) as (p & TP); [congruence|].
      destruct (check_of (hf_ty f)) as [c|] eqn:C; [|rewrite TP in C; discriminate C].
      destruct (proj2 (gather_has _ _ _ G) f g c I XE C) as (b & IB & IY). apply testable_check. exists c. split; [exact C|].
      rewrite forallb_forall in B. specialize (B b (Permutation_in _ P IB)). rewrite forallb_forall in B. specialize (B _ IY).
      unfold can_test in B. cbn [fst snd emit em_fields] in B. rewrite (T N f I) in B. exact B.
    + intros f I E. apply orb_prop in A as [A|A].
      * apply negb_true_iff, not_true_iff_false in A. destruct A. unfold has_attributes. apply existsb_exists. exists f. split; [exact I|].
        rewrite E. apply String.eqb_refl.
      * unfold can_test in A. cbn [fst snd emit em_fields] in A. rewrite <- E, (T N f I) in A. destruct (hf_ty f) as [p|]; [|discriminate].
        exists p. split; [reflexivity|]. apply String.eqb_eq. exact A.
  - intros (N & D & B & A). split; [split; [split; [exact N|exact D]|]|].
    + apply forallb_forall. intros b IB. apply forallb_forall. intros y IY.
      destruct (gather_in _ _ _ G b y (Permutation_in _ (Permutation_sym P) IB) IY) as [([k l] & [E|[]] & Y)|(f & g & I & X & NM & C)].
      * injection E as <- <-. cbn [snd] in Y. destruct Y as [<-|[<-|[]]]; reflexivity.
      * destruct (proj1 (testable_check _) (B f I ltac:(congruence))) as (c & C' & H). rewrite C in C'. injection C' as <-.
        unfold can_test. cbn [emit em_fields]. rewrite <- NM, (T N f I). exact H.
    + destruct (has_attributes d) eqn:H; [|reflexivity]. cbn [negb orb]. unfold has_attributes in H. apply existsb_exists in H as (f & I & E).
      apply String.eqb_eq in E. destruct (A f I E) as (p & TP & L). unfold can_test. cbn [fst snd emit em_fields]. rewrite <- E, (T N f I), TP.
      cbn [has_method]. apply String.eqb_eq. exact L.
Qed.
