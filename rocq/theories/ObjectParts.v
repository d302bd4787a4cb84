(** One field of a shared object, whatever keeps it. *)
From Coq Require Import List Bool String Arith Lia.
From Verif Require Import ProxyTypes ArgsModel CtxModel RustAst RustSem CommonGen PlainGen SyncGen StructGen CodegenSpec CodegenProofs
  FieldSpec FieldRun FieldProofs FieldSeq FieldStruct GuardCell ThreadSpec ThreadModel ThreadSim ThreadProofs LockedModel LockedSim LockedProofs
  ObjectSpec ObjectModel ObjectProofs.
From Verif Require SyncProxyModel AsyncProxyModel.
Import ListNotations.
Open Scope list_scope.

(** ** Fields that are neither lazy nor locked *)
Lemma direct_call b dflt v k n o :
  v_disc v = Direct -> match v_shape v with Lazy _ => False | _ => True end -> k <> KSetter -> k <> KClearer ->
  (match spec_call b dflt v k n (mk_cellst o 0 false 0) with
   | Returns _ c' => c' = mk_cellst o 0 false 0
   | Panics _ | Waits _ => False
   | Nonsense => True
   end) /\ forall b', spec_call b' dflt v k n (mk_cellst o 0 false 0) = spec_call b dflt v k n (mk_cellst o 0 false 0).
Proof.
  destruct v as [sh di ke]. cbn. intros -> Sh N1 N2. destruct k; try congruence; destruct sh; try destruct Sh; destruct o; cbn; auto.
Qed.
Lemma open_view c f t : f_is_skipped f = false -> field_type c f = GOk t -> store_of t = Some KeptOpen ->
  v_disc (view_of c f) = Direct /\ match v_shape (view_of c f) with Lazy _ => False | _ => True end.
Proof.
  intros Sk T K. pose proof (field_fits c f t Sk T) as F.
  inversion F; subst; cbn in K; try discriminate K;
    match goal with A : v_shape _ = _, B : v_disc _ = _ |- _ => rewrite A, B end; auto.
Qed.
Lemma open_flags c f t : f_is_skipped f = false -> field_type c f = GOk t -> store_of t = Some KeptOpen ->
  is_lazy c f = false /\ (is_sync c f = true -> needs_lock c f = false) /\ (is_sync c f = false -> is_inner_mut c f = false).
Proof.
  unfold field_type. intros Sk T K. destruct (is_sync c f).
  - unfold sync_type in T. bind_in T. cbn [gbind] in T. injection T as <-. cbn in K. rewrite Sk in K.
    unfold maybe_locked, maybe_optional in K. cbn in K.
    destruct (is_lazy c f), (needs_lock c f), (is_optional c f); cbn in K; try discriminate K; repeat split; intros; congruence.
  - injection T as <-. unfold plain_type in K. cbn in K.
    destruct (is_lazy c f), (is_inner_mut c f), (is_optional c f); cbn in K; try discriminate K; repeat split; intros; congruence.
Qed.
Lemma open_reads c f t ms m : f_is_skipped f = false -> field_type c f = GOk t -> store_of t = Some KeptOpen ->
  field_methods c f = GOk ms -> In m ms -> works c f (m_kind m) = true -> by_reference m = true ->
  m_kind m <> KSetter /\ m_kind m <> KClearer.
Proof.
  intros Sk T K M Hin W By. destruct (open_flags c f t Sk T K) as (La & Lk & Im). unfold works in W. unfold field_methods in M.
  destruct (is_sync c f).
  - specialize (Lk eq_refl). apply andb_true_iff in W as [W _]. apply andb_true_iff in W as [_ W].
    unfold sync_methods in M. change (g_skip (cfg_of c f)) with (f_is_skipped f) in M. rewrite Sk in M.
    bind_in M. injection M as <-. rewrite !in_app_iff in Hin.
    unfold sync_accessor, sync_accessor_mut, sync_reader, sync_writer, sync_setter, sync_clearer, sync_predicate, reader_method,
      fallible_return_type in *.
    cbn in *. rewrite ?La, ?Lk in *.
    destruct Hin as [Hin|[Hin|[Hin|[Hin|[Hin|[Hin|Hin]]]]]].
    Ltac gone E Hin By :=
      repeat match type of E with
      | context [if ?z then _ else _] => destruct z
      | context [match ?z with _ => _ end] => destruct z
      end; bind_in E; try discriminate E; try (injection E as <-); cbn in Hin; try tauto;
      destruct Hin as [<-|[]]; try discriminate By; split; discriminate.
    + gone E Hin By.
    + gone E0 Hin By.
    + gone E1 Hin By.
    + gone E2 Hin By.
    + gone E3 Hin By.
    + destruct (needs_clearer c f); injection E4 as <-; [|destruct Hin]. destruct Hin as [<-|[]]. exfalso.
      unfold sync_well_typed in W. cbn in W. rewrite La, Lk in W. rewrite andb_false_r in W. discriminate W.
    + gone E5 Hin By.
  - specialize (Im eq_refl). unfold plain_methods in M. change (g_skip (cfg_of c f)) with (f_is_skipped f) in M. rewrite Sk in M.
    bind_in M. injection M as <-. rewrite !in_app_iff in Hin.
    unfold plain_accessor, plain_accessor_mut, plain_setter, plain_clearer, plain_predicate, fallible_return_type in *.
    cbn in *. rewrite ?La, ?Im in *.
    destruct Hin as [Hin|[Hin|[Hin|[Hin|Hin]]]].
    + gone E Hin By.
    + gone E0 Hin By.
    + gone E1 Hin By.
    + gone E2 Hin By.
    + gone E3 Hin By.
Qed.
Lemma plain_async g ms m : plain_methods g = GOk ms -> In m ms -> m_async m = false.
Proof.
  intros H Hin. destruct (m_async m) eqn:Ma; [exfalso|reflexivity].
  unfold plain_methods in H. destruct (g_skip g); [injection H as <-; destruct Hin|].
  bind_in H. injection H as <-. rewrite !in_app_iff in Hin.
  unfold plain_accessor, plain_accessor_mut, plain_setter, plain_clearer, plain_predicate, fallible_return_type in *.
  Ltac gone2 E Hin Ma :=
    repeat match type of E with
    | context [if ?z then _ else _] => destruct z
    | context [match ?z with _ => _ end] => destruct z
    end; bind_in E; try discriminate E; try (injection E as <-); cbn in Hin; try tauto;
    destruct Hin as [<-|[]]; discriminate Ma.
  destruct Hin as [Hin|[Hin|[Hin|[Hin|Hin]]]].
  - gone2 E Hin Ma.
  - gone2 E0 Hin Ma.
  - gone2 E1 Hin Ma.
  - gone2 E2 Hin Ma.
  - gone2 E3 Hin Ma.
Qed.
Lemma find_kind k ms m : find_method k ms = Some m -> In m ms /\ m_kind m = k.
Proof. unfold find_method. intros H. apply find_some in H as [I E]. apply hkind_eqb_eq in E. auto. Qed.

Section Open.
Variables (c : sctx) (f : field).
Variable bld : nat -> outcome nat nat.
Variables (dflt : nat) (user : string -> nat) (t : ty) (ms : list mdecl) (p : part) (o : option nat).
Hypothesis Sk : f_is_skipped f = false.
Hypothesis Ty : field_type c f = GOk t.
Hypothesis Op : store_of t = Some KeptOpen.
Hypothesis M : field_methods c f = GOk ms.
Hypothesis Wk : forall k, In k (map m_kind ms) -> works c f k = true.
Hypothesis Ps : p_store p = KeptOpen.
Hypothesis Pf : p_fallible p = is_fallible c f.
Hypothesis Pm : p_methods p = ms.
Hypothesis Rp : rep t o = Some (p_value p).
Notation cell := (mk_cellst o 0 false 0).

Lemma open_answers k m n : find_method k ms = Some m -> by_reference m = true ->
  exists an, open_call dflt user p m n (p_value p) = Some (ORet an, p_value p) /\
    spec_call bld dflt (view_of c f) k n cell = Returns an cell.
Proof.
  intros F By. destruct (find_kind _ _ _ F) as [I Ek].
  assert (W : works c f k = true) by (apply Wk; rewrite <- Ek; apply in_map, I).
  destruct (open_view c f t Sk Ty Op) as [Di Sh].
  assert (NK : k <> KSetter /\ k <> KClearer) by (rewrite <- Ek in *; exact (open_reads c f t ms m Sk Ty Op M I W By)).
  destruct (field_method (fun _ => BPanic) dflt user true c f t ms Sk Ty M (fun _ => eq_refl) k W) as (m' & F' & A).
  rewrite F in F'. injection F' as <-.
  specialize (A n (mk_st (p_value p) 0 false 0) cell).
  destruct (direct_call (fun _ => BPanic) dflt (view_of c f) k n o Di Sh (proj1 NK) (proj2 NK)) as [D B].
  rewrite (B bld). unfold open_call. rewrite Pf.
  assert (A' : agrees t (view_of c f) k (call (fun _ => BPanic) (is_fallible c f) true dflt user m n (mk_st (p_value p) 0 false 0))
    (spec_call (fun _ => BPanic) dflt (view_of c f) k n cell)).
  { apply A; [repeat split; exact Rp|]. intros _. split; reflexivity. }
  destruct (spec_call (fun _ => BPanic) dflt (view_of c f) k n cell) as [an c'|c'|c'|]; [subst c'|destruct D|destruct D|].
  - destruct (call (fun _ => BPanic) (is_fallible c f) true dflt user m n (mk_st (p_value p) 0 false 0)) as [v s|s|s|]; [|destruct A'|destruct A'|destruct A'].
    destruct A' as (Se & (Sw & _) & _). rewrite Se. exists an. split; [|reflexivity]. cbn in Sw. rewrite Rp in Sw. injection Sw as Sw.
    rewrite <- Sw. reflexivity.
  - destruct (call (fun _ => BPanic) (is_fallible c f) true dflt user m n (mk_st (p_value p) 0 false 0)); destruct A'.
Qed.
Inductive opened : othr -> wstat -> Prop :=
| op_idle : opened TIdle WFree
| op_fresh k m n : find_method k ms = Some m -> by_reference m = true -> m_async m = true -> opened (TFresh m n) (WAsked k n)
| op_doing k m n : find_method k ms = Some m -> by_reference m = true -> opened (TDoing m n) (WAsked k n)
| op_done ob : opened (TDone ob) (WDone ob None).
Definition open_tied (s : fstate) (w : cellst * (aid -> wstat)) : Prop :=
  exists th x, s = FOpen (p_value p) th /\ w = (cell, x) /\ forall a, opened (th a) (x a).
Lemma opened_set th x a y z : (forall b, opened (th b) (x b)) -> opened y z -> forall b, opened (set_othr th a y b) (wset x a z b).
Proof. intros H Y b. unfold set_othr, wset. destruct (Nat.eqb b a); [exact Y|apply H]. Qed.
Lemma fresh_async m : In m ms -> m_async m = true -> is_async c f = true.
Proof.
  intros I Ma. pose proof M as M'. unfold field_methods in M'. destruct (is_sync c f).
  - exact (async_method _ _ m M' I Ma).
  - rewrite (plain_async _ _ m M' I) in Ma. discriminate Ma.
Qed.
Lemma hands_nothing k : hands_guard (view_of c f) k = None.
Proof. destruct (open_view c f t Sk Ty Op) as [Di _]. unfold hands_guard. rewrite Di. reflexivity. Qed.
Lemma open_sim s w x s' h ev : open_tied s w -> part_step dflt user p s x = Some (s', h, ev) ->
  exists w', wruns bld dflt (view_of c f) (is_async c f) w h w' /\ open_tied s' w'.
Proof.
  intros (th & st & -> & -> & T) H. unfold part_step in H. rewrite Ps in H.
  destruct (open_step dflt user p (p_value p) th x) as [[[w' th'] h']|] eqn:E; [|discriminate H]. injection H as <- <- <-.
  assert (One : forall h0 w1, wstep bld dflt (view_of c f) (is_async c f) (cell, st) h0 w1 ->
    wruns bld dflt (view_of c f) (is_async c f) (cell, st) h0 w1).
  { intros h0 w1 St. rewrite <- (app_nil_r h0). exact (wr_step _ _ _ _ _ _ _ _ _ St (wr_nil _ _ _ _ _)). }
  destruct x as [a k n|a u|a|a|a b|a]; cbn in E; try discriminate E.
  - pose proof (T a) as Ta. inversion Ta as [E1 E2|? ? ? ? ? ? E1 E2|? ? ? ? ? E1 E2|? E1 E2]; rewrite <- E1 in E; try discriminate E.
    rewrite Pm in E. destruct (find_method k ms) as [m|] eqn:F; [|discriminate E].
    destruct (by_reference m) eqn:By; [|discriminate E]. injection E as <- <- <-.
    exists (cell, wset st a (WAsked k n)). split; [apply One, w_call; auto|].
    eexists. eexists. split; [reflexivity|]. split; [reflexivity|]. apply opened_set; [exact T|].
    destruct (m_async m) eqn:Ma; [apply op_fresh|apply op_doing]; assumption.
  - pose proof (T a) as Ta. inversion Ta as [E1 E2|k m n F By Ma E1 E2|k m n F By E1 E2|ob E1 E2]; rewrite <- E1 in E; try discriminate E.
    + injection E as <- <- <-. exists (cell, st). split; [apply wr_nil|].
      eexists. exists st. split; [reflexivity|]. split; [reflexivity|]. intros b. unfold set_othr. destruct (Nat.eqb_spec b a) as [->|N].
      * rewrite <- E2. apply op_doing; assumption.
      * apply T.
    + destruct (open_answers k m n F By) as (an & Oc & Sp). rewrite Oc in E. injection E as <- <- <-.
      exists (cell, wset st a (WDone (ORet an) (handed (view_of c f) k an))). split; [apply One; eapply w_answer; [symmetry; exact E2|exact Sp]|].
      eexists. eexists. split; [reflexivity|]. split; [reflexivity|]. apply opened_set; [exact T|].
      assert (Hn : handed (view_of c f) k an = None) by (unfold handed; rewrite hands_nothing; destruct an; reflexivity).
      rewrite Hn. apply op_done.
    + injection E as <- <- <-. exists (cell, wset st a (after None)). split; [apply One, w_ret; auto|].
      eexists. eexists. split; [reflexivity|]. split; [reflexivity|]. apply opened_set; [exact T|apply op_idle].
  - pose proof (T a) as Ta. inversion Ta as [E1 E2|k m n F By Ma E1 E2|k m n F By E1 E2|ob E1 E2]; rewrite <- E1 in E; try discriminate E.
    injection E as <- <- <-. exists (cell, wset st a WFree). split.
    + apply One. eapply w_gone; [|symmetry; exact E2]. destruct (find_kind _ _ _ F) as [I _]. exact (fresh_async m I Ma).
    + eexists. eexists. split; [reflexivity|]. split; [reflexivity|]. apply opened_set; [exact T|apply op_idle].
Qed.
Lemma wruns_app b v cn w t1 w1 : wruns b dflt v cn w t1 w1 -> forall t2 w2, wruns b dflt v cn w1 t2 w2 -> wruns b dflt v cn w (t1 ++ t2) w2.
Proof.
  induction 1 as [w|w t1 w1 t2 w2 St Rn IH]; intros t3 w3 K; [exact K|]. rewrite <- app_assoc.
  exact (wr_step _ _ _ _ _ _ _ _ _ St (IH _ _ K)).
Qed.
Lemma open_runs l : forall s w s' h ev, open_tied s w -> part_run dflt user p s l = Some (s', h, ev) ->
  exists w', wruns bld dflt (view_of c f) (is_async c f) w h w' /\ open_tied s' w'.
Proof.
  induction l as [|x l IH]; intros s w s' h ev T H.
  - injection H as <- <- <-. exists w. split; [apply wr_nil|exact T].
  - cbn [part_run] in H. destruct (part_step dflt user p s x) as [[[s1 h1] t1]|] eqn:E; [|discriminate H].
    destruct (part_run dflt user p s1 l) as [[[s2 h2] t2]|] eqn:R; [|discriminate H]. injection H as <- <- <-.
    destruct (open_sim _ _ _ _ _ _ T E) as (w1 & W1 & T1). destruct (IH _ _ _ _ _ T1 R) as (w2 & W2 & T2).
    exists w2. split; [exact (wruns_app _ _ _ _ _ _ W1 _ _ W2)|exact T2].
Qed.
Lemma open_start : open_tied (part_start p) (wstart o).
Proof.
  unfold part_start. rewrite Ps. exists (fun _ => TIdle), (fun _ => WFree). split; [reflexivity|]. split; [reflexivity|]. intros a. apply op_idle.
Qed.
Lemma open_goes s w a : open_tied s w -> place_of s a <> Free -> part_step dflt user p s (MGo a) <> None.
Proof.
  intros (th & x & -> & -> & T) N. unfold part_step. rewrite Ps. cbn in *. pose proof (T a) as Ta.
  inversion Ta as [E1 E2|k m n F By Ma E1 E2|k m n F By E1 E2|ob E1 E2]; rewrite <- E1 in *.
  - congruence.
  - discriminate.
  - destruct (open_answers k m n F By) as (an & -> & _). discriminate.
  - discriminate.
Qed.
End Open.

(** ** Runs of any field *)
Lemma sync_runs_of dflt user p : p_store p = KeptLazy false -> forall l s s' h t,
  part_run dflt user p (FSync s) l = Some (s', h, t) ->
  exists z, s' = FSync z /\ mrun _ sync_box (p_methods p) false true s l = Some (z, h, t).
Proof.
  intros Ps. induction l as [|x l IH]; intros s s' h t H.
  - injection H as <- <- <-. exists s. auto.
  - cbn [part_run] in H. unfold part_step at 1 in H. rewrite Ps in H.
    destruct (mstep _ sync_box (p_methods p) false true s x) as [[[s1 h1] t1]|] eqn:E; [|discriminate H].
    destruct (part_run dflt user p (FSync s1) l) as [[[s2 h2] t2]|] eqn:R; [|discriminate H]. injection H as <- <- <-.
    destruct (IH _ _ _ _ R) as (z & -> & Q). exists z. split; [reflexivity|]. cbn [mrun]. rewrite E, Q. reflexivity.
Qed.
Lemma async_runs_of dflt user p : p_store p = KeptLazy true -> forall l s s' h t,
  part_run dflt user p (FAsync s) l = Some (s', h, t) ->
  exists z, s' = FAsync z /\ mrun _ async_box (p_methods p) true true s l = Some (z, h, t).
Proof.
  intros Ps. induction l as [|x l IH]; intros s s' h t H.
  - injection H as <- <- <-. exists s. auto.
  - cbn [part_run] in H. unfold part_step at 1 in H. rewrite Ps in H.
    destruct (mstep _ async_box (p_methods p) true true s x) as [[[s1 h1] t1]|] eqn:E; [|discriminate H].
    destruct (part_run dflt user p (FAsync s1) l) as [[[s2 h2] t2]|] eqn:R; [|discriminate H]. injection H as <- <- <-.
    destruct (IH _ _ _ _ R) as (z & -> & Q). exists z. split; [reflexivity|]. cbn [mrun]. rewrite E, Q. reflexivity.
Qed.
Lemma lock_runs_of dflt user p a o : p_store p = KeptLocked a o -> forall l s s' h t,
  part_run dflt user p (FLock s) l = Some (s', h, t) ->
  exists z l', s' = FLock z /\ lmoves a o (p_methods p) s l' = Some (z, h).
Proof.
  intros Ps. induction l as [|x l IH]; intros s s' h t H.
  - injection H as <- <- <-. exists s, []. auto.
  - cbn [part_run] in H. unfold part_step at 1 in H. rewrite Ps in H.
    destruct (as_lact x) as [y|]; [|discriminate H].
    destruct (lmove a o (p_methods p) s y) as [[s1 h1]|] eqn:E; [|discriminate H].
    destruct (part_run dflt user p (FLock s1) l) as [[[s2 h2] t2]|] eqn:R; [|discriminate H]. injection H as <- <- <-.
    destruct (IH _ _ _ _ R) as (z & l' & -> & Q). exists z, (y :: l'). split; [reflexivity|]. cbn [lmoves]. rewrite E, Q. reflexivity.
Qed.
Lemma mrun_last St bs ms asy al l : forall s s1 h t x, mrun St bs ms asy al s l = Some (s1, h, t) ->
  mrun St bs ms asy al s (l ++ [x]) <> None -> mstep St bs ms asy al s1 x <> None.
Proof.
  induction l as [|y l IH]; intros s s1 h t x H N; cbn in *.
  - injection H as <- <- <-. destruct (mstep _ _ _ _ _ s x) as [[[? ?] ?]|]; [discriminate|congruence].
  - destruct (mstep _ _ _ _ _ s y) as [[[s2 h2] t2]|]; [|discriminate H].
    destruct (mrun _ _ _ _ _ s2 l) as [[[s3 h3] t3]|] eqn:Q; [|discriminate H]. injection H as <- <- <-.
    apply (IH _ _ _ _ x Q). destruct (mrun _ _ _ _ _ s2 (l ++ [x])) as [[[? ?] ?]|]; [discriminate|congruence].
Qed.
Lemma lmoves_last asy opt ms l : forall s s1 h x, lmoves asy opt ms s l = Some (s1, h) ->
  lmoves asy opt ms s (l ++ [x]) <> None -> lmove asy opt ms s1 x <> None.
Proof.
  induction l as [|y l IH]; intros s s1 h x H N; cbn in *.
  - injection H as <- <-. destruct (lmove _ _ _ s x) as [[? ?]|]; [discriminate|congruence].
  - destruct (lmove _ _ _ s y) as [[s2 h2]|]; [|discriminate H].
    destruct (lmoves _ _ _ s2 l) as [[s3 h3]|] eqn:Q; [|discriminate H]. injection H as <- <-.
    apply (IH _ _ _ x Q). destruct (lmoves _ _ _ s2 (l ++ [x])) as [[? ?]|]; [discriminate|congruence].
Qed.

Lemma lazy_type c f t a : field_type c f = GOk t -> store_of t = Some (KeptLazy a) ->
  is_sync c f = true /\ is_lazy c f = true /\ f_is_skipped f = false /\ is_async c f = a.
Proof.
  unfold field_type. intros T K. destruct (is_sync c f).
  - unfold sync_type in T. bind_in T. cbn [gbind] in T. injection T as <-. cbn in K. destruct (f_is_skipped f); [discriminate K|].
    unfold maybe_locked, maybe_optional in K. cbn in K.
    destruct (is_lazy c f), (needs_lock c f), (is_optional c f); cbn in K; try discriminate K; injection K as <-; auto.
  - exfalso. injection T as <-. unfold plain_type in K. cbn in K.
    destruct (f_is_skipped f), (is_lazy c f), (is_inner_mut c f), (is_optional c f); discriminate K.
Qed.
Lemma store_lock t a o : store_of t = Some (KeptLocked a o) -> lock_of t = Some (a, o).
Proof.
  unfold store_of, lock_of. intros H.
  repeat match type of H with context [match ?z with _ => _ end] => destruct z; try discriminate H end;
    injection H as <- <-; reflexivity.
Qed.

Section Field.
Variables (c : sctx) (f : field).
Variable bld : nat -> outcome nat nat.
Variables (dflt : nat) (user : string -> nat) (o : option nat) (p : part).
Hypothesis Sk : f_is_skipped f = false.
Hypothesis Po : part_of c f o = Some p.
Hypothesis Wk : forall k, In k (map m_kind (p_methods p)) -> works c f k = true.

Lemma part_facts : exists t ms, field_type c f = GOk t /\ field_methods c f = GOk ms /\ store_of t = Some (p_store p) /\
  rep t o = Some (p_value p) /\ p_methods p = ms /\ p_fallible p = is_fallible c f /\ p_content p = o.
Proof.
  clear Wk. unfold part_of in Po. destruct (field_type c f) as [t| |]; try discriminate Po.
  destruct (field_methods c f) as [ms| |]; try discriminate Po.
  destruct (store_of t) as [s|] eqn:S1; [|discriminate Po]. destruct (rep t o) as [w|] eqn:Rp; [|discriminate Po].
  injection Po as <-. exists t, ms. auto 10.
Qed.
Lemma stored_content t : field_type c f = GOk t -> rep t o = Some (p_value p) -> has_content (view_of c f) o = true.
Proof.
  intros T Rp. pose proof (field_fits c f t Sk T) as F. unfold has_content.
  inversion F; subst; match goal with A : v_shape _ = _ |- _ => rewrite A end; try reflexivity;
    destruct o; try reflexivity; discriminate Rp.
Qed.
Theorem part_history l s h t : part_run dflt user p (part_start p) l = Some (s, h, t) -> oracle bld t ->
  exists w, wruns bld dflt (view_of c f) (is_async c f) (wstart o) h w.
Proof.
  destruct part_facts as (ty & ms & T & M & So & Rp & Pm & Pf & Pc). intros H O.
  destruct (p_store p) as [[|]|a op|] eqn:Ps.
  - destruct (lazy_type c f ty true T So) as (Sy & La & _ & As).
    unfold part_start in H. rewrite Ps, Pc in H. destruct (async_runs_of dflt user p Ps l _ _ _ _ H) as (z & -> & R).
    rewrite Pm in *. assert (Tg : together (is_async c f) true ms o l = Some (m_thr z, h, t)).
    { unfold together. rewrite As, R. reflexivity. }
    exact (proj1 (threads c f bld dflt true ms Sy La Sk M (fun _ => eq_refl) Wk o l _ _ _ Tg O)).
  - destruct (lazy_type c f ty false T So) as (Sy & La & _ & As).
    unfold part_start in H. rewrite Ps, Pc in H. destruct (sync_runs_of dflt user p Ps l _ _ _ _ H) as (z & -> & R).
    rewrite Pm in *. assert (Tg : together (is_async c f) true ms o l = Some (m_thr z, h, t)).
    { unfold together. rewrite As, R. reflexivity. }
    exact (proj1 (threads c f bld dflt true ms Sy La Sk M (fun _ => eq_refl) Wk o l _ _ _ Tg O)).
  - apply store_lock in So. destruct (locked_type c f ty a op T So) as (_ & _ & _ & _ & As & _).
    unfold part_start in H. rewrite Ps, Pc in H. destruct (lock_runs_of dflt user p a op Ps l _ _ _ _ H) as (z & l' & -> & R).
    rewrite Pm in *. assert (Sh : shared a op ms o l' = Some (l_thr z, h)) by (unfold shared; rewrite R; reflexivity).
    rewrite As. exact (proj1 (crowds c f bld dflt ty a op ms T So M Wk o l' _ _ (stored_content ty T Rp) Sh)).
  - rewrite Pm in *.
    destruct (open_runs c f bld dflt user ty ms p o Sk T So M Wk Ps Pf Pm Rp l _ _ _ _ _ (open_start ms p o Ps) H) as (w & W & _).
    exists w. exact W.
Qed.
Theorem part_moves l s h t a : part_run dflt user p (part_start p) l = Some (s, h, t) -> place_of s a <> Free ->
  (exists b, part_step dflt user p s (MGo b) <> None \/ part_step dflt user p s (MStep b) <> None) \/
  (exists b, forall out, part_step dflt user p s (MBuilt b out) <> None) \/
  (exists b g, place_of s b = Keeps g).
Proof.
  destruct part_facts as (ty & ms & T & M & So & Rp & Pm & Pf & Pc). intros H N.
  destruct (p_store p) as [[|]|x op|] eqn:Ps.
  - destruct (lazy_type c f ty true T So) as (Sy & La & _ & As).
    unfold part_start in H. rewrite Ps, Pc in H. destruct (async_runs_of dflt user p Ps l _ _ _ _ H) as (z & -> & R).
    rewrite Pm in *. assert (Tg : together (is_async c f) true ms o l = Some (m_thr z, h, t)).
    { unfold together. rewrite As, R. reflexivity. }
    assert (Ni : m_thr z a <> Idle) by (intros Z; cbn in N; rewrite Z in N; congruence).
    assert (K : forall y, together (is_async c f) true ms o (l ++ [y]) <> None -> part_step dflt user p (FAsync z) y <> None).
    { intros y Ny. unfold together in Ny. rewrite As in Ny. unfold part_step. rewrite Ps, Pm.
      assert (Q : mstep _ async_box ms true true z y <> None).
      { apply (mrun_last _ _ _ _ _ l _ _ _ _ y R). destruct (mrun _ async_box ms true true _ (l ++ [y])) as [[[? ?] ?]|]; [discriminate|congruence]. }
      destruct (mstep _ async_box ms true true z y) as [[[? ?] ?]|]; [discriminate|congruence]. }
    destruct (threads_move c f (seen_builds t) 0 true ms Sy La Sk M (fun _ => eq_refl) Wk o l _ _ _ a Tg (seen_oracle t) Ni)
      as [(b & [B|B])|[(b & B)|(b & g & B)]].
    + left. exists b. left. apply K, B.
    + left. exists b. right. apply K, B.
    + right. left. exists b. intros out. apply K, B.
    + right. right. exists b, g. cbn. rewrite B. reflexivity.
  - destruct (lazy_type c f ty false T So) as (Sy & La & _ & As).
    unfold part_start in H. rewrite Ps, Pc in H. destruct (sync_runs_of dflt user p Ps l _ _ _ _ H) as (z & -> & R).
    rewrite Pm in *. assert (Tg : together (is_async c f) true ms o l = Some (m_thr z, h, t)).
    { unfold together. rewrite As, R. reflexivity. }
    assert (Ni : m_thr z a <> Idle) by (intros Z; cbn in N; rewrite Z in N; congruence).
    assert (K : forall y, together (is_async c f) true ms o (l ++ [y]) <> None -> part_step dflt user p (FSync z) y <> None).
    { intros y Ny. unfold together in Ny. rewrite As in Ny. unfold part_step. rewrite Ps, Pm.
      assert (Q : mstep _ sync_box ms false true z y <> None).
      { apply (mrun_last _ _ _ _ _ l _ _ _ _ y R). destruct (mrun _ sync_box ms false true _ (l ++ [y])) as [[[? ?] ?]|]; [discriminate|congruence]. }
      destruct (mstep _ sync_box ms false true z y) as [[[? ?] ?]|]; [discriminate|congruence]. }
    destruct (threads_move c f (seen_builds t) 0 true ms Sy La Sk M (fun _ => eq_refl) Wk o l _ _ _ a Tg (seen_oracle t) Ni)
      as [(b & [B|B])|[(b & B)|(b & g & B)]].
    + left. exists b. left. apply K, B.
    + left. exists b. right. apply K, B.
    + right. left. exists b. intros out. apply K, B.
    + right. right. exists b, g. cbn. rewrite B. reflexivity.
  - apply store_lock in So. unfold part_start in H. rewrite Ps, Pc in H.
    destruct (lock_runs_of dflt user p x op Ps l _ _ _ _ H) as (z & l' & -> & R).
    rewrite Pm in *. assert (Sh : shared x op ms o l' = Some (l_thr z, h)) by (unfold shared; rewrite R; reflexivity).
    assert (Ni : l_thr z a <> LIdle) by (intros Z; cbn in N; rewrite Z in N; congruence).
    destruct (crowds_move c f bld dflt ty x op ms T So M Wk o l' _ _ a (stored_content ty T Rp) Sh Ni) as [(b & B)|(b & g & B)].
    + left. exists b. left. unfold part_step. rewrite Ps, Pm. cbn [as_lact].
      assert (Q : lmove x op ms z (LGo b) <> None).
      { apply (lmoves_last _ _ _ l' _ _ _ (LGo b) R). unfold shared in B.
        destruct (lmoves x op ms _ (l' ++ [LGo b])) as [[? ?]|]; [discriminate|congruence]. }
      destruct (lmove x op ms z (LGo b)) as [[? ?]|]; [discriminate|congruence].
    + right. right. exists b, g. cbn. rewrite B. reflexivity.
  - rewrite Pm in *. left. exists a. left.
    destruct (open_runs c f bld dflt user ty ms p o Sk T So M Wk Ps Pf Pm Rp l _ _ _ _ _ (open_start ms p o Ps) H) as (w & _ & Tw).
    exact (open_goes c f bld dflt user ty ms p o Sk T So M Wk Ps Pf Rp s w a Tw N).
Qed.
End Field.
