(** How many steps the calls on a shared object make, and that they end. *)
From Coq Require Import List Bool String Arith Lia.
From Verif Require Import ProxyTypes ArgsModel CtxModel RustAst RustSem CommonGen StructGen CodegenSpec FieldSpec FieldRun FieldProofs BehaveSpec
  ThreadSpec ThreadModel LockedModel ObjectSpec ObjectModel ObjectParts ObjectProofs ObjectRecord EndSpec EndProofs.
From Verif Require SyncProxyModel AsyncProxyModel.
Import ListNotations.
Open Scope list_scope.

(** ** Counting *)
Lemma count_app {A} (p : A -> bool) l m : count p (l ++ m) = count p l + count p m.
Proof. unfold count. rewrite filter_app, app_length. reflexivity. Qed.
Lemma count_cons {A} (p : A -> bool) x l : count p (x :: l) = (if p x then 1 else 0) + count p l.
Proof. unfold count. cbn. destruct (p x); reflexivity. Qed.
Lemma count_none {A} (p : A -> bool) l : (forall x, In x l -> p x = false) -> count p l = 0.
Proof. induction l as [|x l IH]; intros H; [reflexivity|]. rewrite count_cons, (H x (or_introl eq_refl)), IH; [reflexivity|]. intros y I. apply H. right. exact I. Qed.
Lemma count_all {A} (p : A -> bool) l : (forall x, In x l -> p x = true) -> count p l = List.length l.
Proof. induction l as [|x l IH]; intros H; [reflexivity|]. rewrite count_cons, (H x (or_introl eq_refl)), IH; [reflexivity|]. intros y I. apply H. right. exact I. Qed.
Lemma count_ext {A} (p q : A -> bool) l : (forall x, In x l -> p x = q x) -> count p l = count q l.
Proof.
  induction l as [|x l IH]; intros H; [reflexivity|]. rewrite !count_cons, (H x (or_introl eq_refl)), IH; [reflexivity|].
  intros y I. apply H. right. exact I.
Qed.
Lemma count_filter {A} (p f : A -> bool) l : count p (filter f l) = count (fun x => p x && f x) l.
Proof.
  induction l as [|x l IH]; [reflexivity|]. cbn [filter]. rewrite (count_cons (fun x => p x && f x)). destruct (f x).
  - rewrite count_cons, IH, andb_true_r. reflexivity.
  - rewrite IH, andb_false_r. reflexivity.
Qed.
Lemma count_split {A} (p f : A -> bool) l : count p l = count (fun x => p x && f x) l + count p (filter (fun x => negb (f x)) l).
Proof.
  rewrite count_filter. induction l as [|x l IH]; [reflexivity|]. rewrite !count_cons, IH. destruct (p x), (f x); cbn; lia.
Qed.
Lemma same_refl x : same x x = true.
Proof. unfold same. rewrite !Nat.eqb_refl. reflexivity. Qed.
Lemma count_keys {A} (key : A -> nat * aid) (p q : A -> bool) K l :
  (forall k, count (fun x => p x && same (key x) k) l <= K * count (fun x => q x && same (key x) k) l) ->
  count p l <= K * count q l.
Proof.
  remember (List.length l) as n eqn:E. revert l E. induction n as [n IH] using lt_wf_ind. intros l E H.
  destruct l as [|x l]; [cbn; lia|]. set (f := fun y => same (key y) (key x)). set (r := filter (fun y => negb (f y)) (x :: l)).
  rewrite (count_split p f), (count_split q f). fold r.
  assert (R : count p r <= K * count q r).
  { apply (IH (List.length r)); [|reflexivity|].
    - subst n r. cbn [filter]. unfold f at 1. rewrite same_refl. cbn [negb List.length]. apply Nat.lt_succ_r.
      clear. induction l as [|y l IH]; cbn; [lia|]. destruct (negb (f y)); cbn; lia.
    - intros k. unfold r. rewrite !count_filter. destruct (same (key x) k) eqn:S1.
      + rewrite (count_none (fun y => p y && same (key y) k && negb (f y))); [lia|].
        intros y _. apply same_eq in S1. unfold f. rewrite S1. destruct (p y), (same (key y) k); reflexivity.
      + specialize (H k).
        rewrite (count_ext (fun y => p y && same (key y) k && negb (f y)) (fun y => p y && same (key y) k)),
          (count_ext (fun y => q y && same (key y) k && negb (f y)) (fun y => q y && same (key y) k)); [exact H| |];
          intros y _; unfold f; destruct (same (key y) k) eqn:S2; rewrite ?andb_false_r; try reflexivity; apply same_eq in S2; rewrite S2;
          (destruct (same k (key x)) eqn:S3; [apply same_eq in S3; rewrite <- S3, same_refl in S1; discriminate S1|]);
          cbn; rewrite !andb_true_r; reflexivity. }
  pose proof (H (key x)) as H0. fold f in H0. cbn beta in H0. change (fun y => p y && same (key y) (key x)) with (fun y => p y && f y) in H0.
  change (fun y => q y && same (key y) (key x)) with (fun y => q y && f y) in H0. lia.
Qed.

(** ** One field *)
Section Part.
Variables (c : sctx) (f : field).
Variables (dflt : nat) (user : string -> nat) (o : option nat) (p : part).
Hypothesis Sk : f_is_skipped f = false.
Hypothesis Po : part_of c f o = Some p.
Hypothesis Wk : forall k, In k (map m_kind (p_methods p)) -> works c f k = true.
Lemma part_bounded l : forall s s' h t a n, part_run dflt user p s l = Some (s', h, t) -> lasts s a n ->
  count (fun x => calm x && Nat.eqb (actor x) a) l <= n + 20 * count (fun x => negb (calm x) && Nat.eqb (actor x) a) l.
Proof.
  induction l as [|x l IH]; intros s s' h t a n H L; [cbn; lia|]. cbn [part_run] in H.
  destruct (part_step dflt user p s x) as [[[s1 h1] t1]|] eqn:St; [|discriminate H].
  destruct (part_run dflt user p s1 l) as [[[s2 h2] t2]|] eqn:Rn; [|discriminate H].
  pose proof (part_lasts c f dflt user o p Sk Po Wk s x s1 h1 t1 a n St L) as Q. rewrite !count_cons.
  destruct (Nat.eqb (actor x) a); rewrite ?andb_true_r, ?andb_false_r.
  - destruct (calm x); cbn [negb].
    + destruct Q as (m & Le & Lm). pose proof (IH _ _ _ _ a m Rn Lm). lia.
    + pose proof (IH _ _ _ _ a 20 Rn Q). lia.
  - pose proof (IH _ _ _ _ a n Rn Q). lia.
Qed.
End Part.

Definition kind_ok (p : part) (s : fstate) : bool :=
  match p_store p, s with
  | KeptLazy false, FSync _ | KeptLazy true, FAsync _ | KeptLocked _ _, FLock _ | KeptOpen, FOpen _ _ => true
  | _, _ => false
  end.
Lemma part_step_kind dflt user p s x s' h t : part_step dflt user p s x = Some (s', h, t) -> kind_ok p s' = true.
Proof.
  unfold part_step, kind_ok. destruct (p_store p) as [[|]|a op|], s; try discriminate.
  - destruct (mstep _ async_box _ _ _ _ _) as [[[? ?] ?]|]; [|discriminate]. intros H. injection H as <- _ _. reflexivity.
  - destruct (mstep _ sync_box _ _ _ _ _) as [[[? ?] ?]|]; [|discriminate]. intros H. injection H as <- _ _. reflexivity.
  - destruct (as_lact x); [|discriminate]. destruct (lmove _ _ _ _ _) as [[? ?]|]; [|discriminate]. intros H. injection H as <- _ _. reflexivity.
  - destruct (open_step _ _ _ _ _ _) as [[[? ?] ?]|]; [|discriminate]. intros H. injection H as <- _ _. reflexivity.
Qed.
Lemma part_kind dflt user p l : forall s s' h t, kind_ok p s = true -> part_run dflt user p s l = Some (s', h, t) -> kind_ok p s' = true.
Proof.
  induction l as [|x l IH]; intros s s' h t K H; cbn [part_run] in H; [injection H as <- _ _; exact K|].
  destruct (part_step dflt user p s x) as [[[s1 h1] t1]|] eqn:St; [|discriminate H].
  destruct (part_run dflt user p s1 l) as [[[s2 h2] t2]|] eqn:Rn; [|discriminate H]. injection H as <- _ _.
  exact (IH _ _ _ _ (part_step_kind _ _ _ _ _ _ _ _ St) Rn).
Qed.
Lemma start_kind p : kind_ok p (part_start p) = true.
Proof. unfold kind_ok, part_start. destruct (p_store p) as [[|]|a op|]; reflexivity. Qed.
Lemma let_go dflt user p s b g : kind_ok p s = true -> place_of s b = Keeps g -> part_step dflt user p s (MUse b LetGo) <> None.
Proof.
  unfold kind_ok, part_step, place_of. destruct (p_store p) as [[|]|a op|], s as [s|s|s|w th]; try discriminate; intros _ P.
  - cbn [mstep]. destruct (m_thr s b); try discriminate P. cbn. discriminate.
  - cbn [mstep]. destruct (m_thr s b); try discriminate P. cbn. discriminate.
  - cbn [as_lact lmove]. destruct (l_thr s b); try discriminate P. cbn. discriminate.
  - destruct (th b); discriminate P.
Qed.
(** Others stay where they are. *)
Lemma part_step_other dflt user p s x s' h t a : part_step dflt user p s x = Some (s', h, t) -> actor x <> a ->
  place_of s' a = place_of s a.
Proof.
  intros H N. unfold part_step in H. destruct (p_store p) as [[|]|b op|], s as [s|s|s|w th]; try discriminate H.
  - destruct (mstep _ async_box (p_methods p) true true s x) as [[[s1 h1] t1]|] eqn:St; [|discriminate H]. injection H as <- _ _. cbn.
    assert (K : m_thr s1 a = m_thr s a); [|rewrite K; reflexivity].
    destruct x as [b k v|b u|b|b|b o|b]; cbn [mstep actor] in *;
      repeat match type of St with match ?z with _ => _ end = _ => destruct z; try discriminate St end;
      injection St as <- _ _; cbn [m_thr]; apply set_other, N.
  - destruct (mstep _ sync_box (p_methods p) false true s x) as [[[s1 h1] t1]|] eqn:St; [|discriminate H]. injection H as <- _ _. cbn.
    assert (K : m_thr s1 a = m_thr s a); [|rewrite K; reflexivity].
    destruct x as [b k v|b u|b|b|b o|b]; cbn [mstep actor] in *;
      repeat match type of St with match ?z with _ => _ end = _ => destruct z; try discriminate St end;
      injection St as <- _ _; cbn [m_thr]; apply set_other, N.
  - destruct (as_lact x) as [y|] eqn:X; [|discriminate H].
    destruct (lmove b op (p_methods p) s y) as [[s1 h1]|] eqn:St; [|discriminate H]. injection H as <- _ _. cbn.
    assert (K : l_thr s1 a = l_thr s a); [|rewrite K; reflexivity].
    destruct x as [d k v|d u|d|d|d o|d]; try discriminate X; injection X as <-; cbn [lmove actor] in *;
      repeat match type of St with match ?z with _ => _ end = _ => destruct z; try discriminate St end;
      injection St as <- _; cbn [l_thr]; apply lset_other, N.
  - destruct (open_step dflt user p w th x) as [[[w1 th1] h1]|] eqn:St; [|discriminate H]. injection H as <- _ _. cbn.
    assert (K : th1 a = th a); [|rewrite K; reflexivity].
    destruct x as [b k v|b u|b|b|b o|b]; cbn [open_step actor] in *; try discriminate St;
      repeat match type of St with match ?z with _ => _ end = _ => destruct z; try discriminate St end;
      injection St as <- <- <-; unfold set_othr; destruct (Nat.eqb_spec a b); congruence.
Qed.
Lemma part_other dflt user p l : forall s s' h t a, part_run dflt user p s l = Some (s', h, t) ->
  (forall x, In x l -> actor x <> a) -> place_of s' a = place_of s a.
Proof.
  induction l as [|x l IH]; intros s s' h t a H N; cbn [part_run] in H; [injection H as <- _ _; reflexivity|].
  destruct (part_step dflt user p s x) as [[[s1 h1] t1]|] eqn:St; [|discriminate H].
  destruct (part_run dflt user p s1 l) as [[[s2 h2] t2]|] eqn:Rn; [|discriminate H]. injection H as <- _ _.
  rewrite (IH _ _ _ _ a Rn (fun y I => N y (or_intror I))). exact (part_step_other _ _ _ _ _ _ _ _ a St (N x (or_introl eq_refl))).
Qed.
Lemma start_free p a : place_of (part_start p) a = Free.
Proof. unfold part_start. destruct (p_store p) as [[|]|b op|]; reflexivity. Qed.

(** ** The object *)
Lemma own_count i a (g : mact -> bool) (p : oact -> bool) l :
  (forall j y, p (OAct j y) = g y) -> (forall j b j' a' k n, p (OInner j b j' a' k n) = g (MInvoke a' k n)) ->
  count (fun x => p x && same (whose x) (i, a)) l = count (fun y => g y && Nat.eqb (actor y) a) (own_acts i l).
Proof.
  intros P1 P2. induction l as [|x l IH]; [reflexivity|]. change (own_acts i (x :: l)) with (own_acts i ([x] ++ l)).
  unfold own_acts at 1. rewrite flat_map_app. fold (own_acts i [x]). fold (own_acts i l). rewrite count_cons, count_app, IH. f_equal. destruct x as [j y|j b j' a' k n]; cbn [own_acts flat_map app].
  - rewrite P1. unfold same, whose. cbn [fst snd]. destruct (Nat.eqb j i); [|rewrite andb_false_r; reflexivity].
    cbn [app]. rewrite count_cons. cbn [andb]. destruct (g y && Nat.eqb (actor y) a); reflexivity.
  - rewrite P2. unfold same, whose. cbn [fst snd]. destruct (Nat.eqb j' i); [|rewrite andb_false_r; reflexivity].
    cbn [app]. rewrite count_cons. cbn [andb actor]. destruct (g (MInvoke a' k n) && Nat.eqb a' a); reflexivity.
Qed.
Lemma own_in i l y : In y (own_acts i l) -> exists x, In x l /\ whose x = (i, actor y).
Proof.
  unfold own_acts. intros I. apply in_flat_map in I as (x & I & J). exists x. split; [exact I|].
  destruct x as [j z|j b j' a' k n]; cbn in J.
  - destruct (Nat.eqb_spec j i) as [->|]; [|destruct J]. destruct J as [<-|[]]. reflexivity.
  - destruct (Nat.eqb_spec j' i) as [->|]; [|destruct J]. destruct J as [<-|[]]. reflexivity.
Qed.
Section Object.
Variables (c : sctx) (fo : list (field * option nat)) (ps : list part).
Variables (dflt : nat) (user : string -> nat).
Hypothesis Sk : forall f o, In (f, o) fo -> f_is_skipped f = false.
Hypothesis Po : map (fun x => part_of c (fst x) (snd x)) fo = map Some ps.
Hypothesis Wk : forall f o ms k, In (f, o) fo -> field_methods c f = GOk ms -> In k (map m_kind ms) -> works c f k = true.

Lemma acts_inside l : forall s s' h t, orun dflt user ps s l = Some (s', h, t) -> forall x, In x l -> fst (whose x) < List.length ps.
Proof.
  induction l as [|y l IH]; intros s s' h t H x I; [destruct I|]. cbn [orun] in H.
  destruct (ostep dflt user ps s y) as [[[s1 h1] t1]|] eqn:St; [|discriminate H].
  destruct (orun dflt user ps s1 l) as [[[s2 h2] t2]|] eqn:Rn; [|discriminate H].
  destruct I as [<-|I]; [|exact (IH _ _ _ _ Rn x I)]. apply nth_error_Some. clear IH Rn H.
  destruct y as [i z|i b j a k n]; cbn [ostep whose fst] in *.
  - destruct (held s i z); [discriminate St|]. unfold field_step in St. destruct (nth_error ps i); congruence.
  - destruct (building dflt user ps s i b && free_to_call ps s i b); [|discriminate St].
    unfold field_step in St. destruct (nth_error ps j); congruence.
Qed.
Lemma at_part i : i < List.length ps -> exists f o p, nth_error ps i = Some p /\ part_of c f o = Some p /\ f_is_skipped f = false /\
  forall k, In k (map m_kind (p_methods p)) -> works c f k = true.
Proof.
  intros Li. destruct (nth_error fo i) as [[f o]|] eqn:E; [|apply nth_error_None in E; rewrite (same_number c fo ps Po) in E; lia].
  destruct (its_part c fo ps Sk Po Wk i f o E) as (p & Hp & P & S1 & W). exists f, o, p. auto.
Qed.
Theorem object_bounded l s h t i a : object_run dflt user ps l = Some (s, h, t) ->
  count (fun x => negb (asks_more x) && same (whose x) (i, a)) l <= 20 * count (fun x => asks_more x && same (whose x) (i, a)) l.
Proof.
  intros H. destruct (le_lt_dec (List.length ps) i) as [Le|Li].
  - rewrite (count_none (fun x => negb (asks_more x) && same (whose x) (i, a))); [lia|]. intros x I.
    pose proof (acts_inside l _ _ _ _ H x I) as Q. unfold same. cbn [fst snd].
    destruct (Nat.eqb_spec (fst (whose x)) i); [lia|]. rewrite andb_false_r. reflexivity.
  - destruct (at_part i Li) as (f & o & p & Hp & P & S1 & W).
    destruct (project dflt user ps l _ _ _ _ H i p (part_start p) Hp) as (f1 & Hf1 & R).
    { unfold ostart. cbn. apply map_nth_error, Hp. }
    pose proof (part_bounded c f dflt user o p S1 P W _ _ _ _ _ a 0 R (start_lasts p a)) as B.
    rewrite (own_count i a calm (fun x => negb (asks_more x))), (own_count i a (fun y => negb (calm y)) asks_more).
    + exact B.
    + intros j y. destruct y as [| ? [| |]| | | |]; reflexivity.
    + reflexivity.
    + intros j y. destruct y as [| ? [| |]| | | |]; reflexivity.
    + reflexivity.
Qed.
Theorem object_finite l s h t : object_run dflt user ps l = Some (s, h, t) ->
  count (fun x => negb (asks_more x)) l <= 20 * count asks_more l.
Proof. intros H. apply (count_keys whose). intros [i a]. exact (object_bounded l s h t i a H). Qed.

Variable rank : nat -> nat.
Variable out : nat -> aid -> outcome nat nat.
Lemma not_free l s h t i fs a : object_run dflt user ps l = Some (s, h, t) -> descending rank l ->
  nth_error (o_fields s) i = Some fs -> place_of fs a <> Free ->
  exists x, winding_down out x /\ object_run dflt user ps (l ++ [x]) <> None.
Proof.
  intros H D Hf N.
  assert (Keep : forall j gs b g, nth_error (o_fields s) j = Some gs -> place_of gs b = Keeps g ->
    exists x, winding_down out x /\ object_run dflt user ps (l ++ [x]) <> None).
  { intros j gs b g G P. exists (OAct j (MUse b LetGo)). split; [split; [reflexivity|exact I]|].
    apply (orun_snoc ps dflt user l _ _ _ _ _ H). cbn [ostep held]. unfold field_step. rewrite G.
    assert (Lj : j < List.length ps).
    { destruct (run_fields dflt user ps l _ _ _ _ H) as [Ln _]. unfold ostart in Ln. cbn [o_fields] in Ln. rewrite map_length in Ln.
      rewrite <- Ln. apply nth_error_Some. congruence. }
    destruct (at_part j Lj) as (f & o & p & Hp & _). rewrite Hp.
    destruct (project dflt user ps l _ _ _ _ H j p (part_start p) Hp) as (f1 & Hf1 & R).
    { unfold ostart. cbn. apply map_nth_error, Hp. }
    rewrite G in Hf1. injection Hf1 as <-.
    pose proof (let_go dflt user p gs b g (part_kind _ _ _ _ _ _ _ _ (start_kind p) R) P) as Q.
    destruct (part_step dflt user p gs (MUse b LetGo)) as [[[? ?] ?]|]; [discriminate|congruence]. }
  destruct (place_of fs a) as [| |g] eqn:P; [congruence| |exact (Keep i fs a g Hf P)].
  assert (A : acting (o_fields s) (i, a) = true) by (unfold acting; cbn [fst snd]; rewrite Hf, P; reflexivity).
  destruct (object_moves c fo ps (fun _ _ => BPanic) dflt user Sk Po Wk rank l s h t i a H D A) as [(j & b & [B|B])|[(j & b & B)|(j & gs & b & g & G & B)]].
  - exists (OAct j (MGo b)). split; [split; [reflexivity|exact I]|exact B].
  - exists (OAct j (MStep b)). split; [split; [reflexivity|exact I]|exact B].
  - exists (OAct j (MBuilt b (out j b))). split; [split; reflexivity|apply B].
  - exact (Keep j gs b g G B).
Qed.
Theorem object_over l s h t : object_run dflt user ps l = Some (s, h, t) -> descending rank l ->
  (forall x, winding_down out x -> object_run dflt user ps (l ++ [x]) = None) -> all_over s.
Proof.
  intros H D N i fs a Hf. destruct (place_of fs a) as [| |g] eqn:P; [reflexivity| |];
    (destruct (not_free l s h t i fs a H D Hf) as (x & W & Q); [congruence|exfalso; exact (Q (N x W))]).
Qed.
Definition busy (s : object) (e : nat * aid) : bool :=
  match nth_error (o_fields s) (fst e) with
  | Some fs => match place_of fs (snd e) with Free => false | _ => true end
  | None => false
  end.
Lemma none_busy l s h t : object_run dflt user ps l = Some (s, h, t) -> existsb (busy s) (map whose l) = false -> all_over s.
Proof.
  intros H B i fs a Hf. destruct (existsb (same (i, a)) (map whose l)) eqn:E.
  - apply existsb_exists in E as (e & I & Q). apply same_eq in Q. subst e.
    destruct (busy s (i, a)) eqn:Z.
    + assert (K : existsb (busy s) (map whose l) = true) by (apply existsb_exists; exists (i, a); auto). congruence.
    + unfold busy in Z. cbn [fst snd] in Z. rewrite Hf in Z. destruct (place_of fs a); [reflexivity|discriminate Z|discriminate Z].
  - assert (Li : i < List.length ps).
    { destruct (run_fields dflt user ps l _ _ _ _ H) as [Ln _]. unfold ostart in Ln. cbn [o_fields] in Ln. rewrite map_length in Ln.
      rewrite <- Ln. apply nth_error_Some. congruence. }
    destruct (at_part i Li) as (f & o & p & Hp & _).
    destruct (project dflt user ps l _ _ _ _ H i p (part_start p) Hp) as (f1 & Hf1 & R).
    { unfold ostart. cbn. apply map_nth_error, Hp. }
    rewrite Hf in Hf1. injection Hf1 as <-. rewrite (part_other _ _ _ _ _ _ _ _ a R), start_free; [reflexivity|].
    intros y I Q. destruct (own_in _ _ _ I) as (x & Ix & W). rewrite Q in W.
    assert (K : existsb (same (i, a)) (map whose l) = true).
    { apply existsb_exists. exists (whose x). split; [apply in_map, Ix|]. rewrite W. apply same_refl. }
    congruence.
Qed.
Theorem object_ends l s h t : object_run dflt user ps l = Some (s, h, t) -> descending rank l ->
  exists l' s' h' t', Forall (winding_down out) l' /\ object_run dflt user ps (l ++ l') = Some (s', h', t') /\ all_over s'.
Proof.
  remember (20 * count asks_more l - count (fun x => negb (asks_more x)) l) as n eqn:En. revert l s h t En.
  induction n as [n IH] using lt_wf_ind. intros l s h t En H D.
  destruct (existsb (busy s) (map whose l)) eqn:B.
  - apply existsb_exists in B as ([i a] & _ & B). unfold busy in B. cbn [fst snd] in B.
    destruct (nth_error (o_fields s) i) as [fs|] eqn:Hf; [|discriminate B].
    destruct (not_free l s h t i fs a H D Hf) as (x & W & Q). { destruct (place_of fs a); congruence. }
    destruct (object_run dflt user ps (l ++ [x])) as [[[s1 h1] t1]|] eqn:R1; [|congruence].
    pose proof (object_finite _ _ _ _ R1) as Fi. rewrite !count_app, !count_cons in Fi. destruct W as [W1 W2]. rewrite W1 in Fi. cbn in Fi.
    destruct (IH (20 * count asks_more (l ++ [x]) - count (fun x => negb (asks_more x)) (l ++ [x]))) with (l := l ++ [x]) (s := s1) (h := h1) (t := t1)
      as (l' & s' & h' & t' & F & R & O).
    + rewrite !count_app, !count_cons, W1. cbn. lia.
    + reflexivity.
    + exact R1.
    + intros i' b j a' k v I. apply in_app_iff in I as [I|[I|[]]]; [exact (D _ _ _ _ _ _ I)|]. subst x. discriminate W1.
    + exists (x :: l'), s', h', t'. split; [constructor; [split; assumption|exact F]|]. split; [|exact O].
      rewrite <- app_assoc in R. exact R.
  - exists [], s, h, t. rewrite app_nil_r. split; [constructor|]. split; [exact H|exact (none_busy l s h t H B)].
Qed.
End Object.
