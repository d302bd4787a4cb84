(** Whoever joins all users of an object knows all that happened to it. *)
From Coq Require Import List Bool String Arith Lia.
From Verif Require Import ProxyTypes ArgsModel CtxModel RustAst RustSem CommonGen StructGen CodegenSpec FieldSpec FieldRun GuardCell
  ThreadSpec ThreadModel LockedModel LockedSim ObjectSpec ObjectModel ObjectProofs ObjectParts ObjectRecord EndSpec SerdeModel LifeSpec LifeModel LifeProofs LifeRecord
  WeakMem WeakMemFacts WeakSpec WeakFresh WeakObjectSpec WeakObjectModel WeakObjectThreads WeakObjectLock WeakObjectParts WeakObjectProofs WeakObjectFresh
  WeakLifeSpec WeakLifeModel.
From Verif Require SyncProxyModel AsyncProxyModel WeakSyncModel WeakAsyncModel WeakSyncProofs WeakAsyncProofs SyncProxyInv AsyncProxyInv.
Import ListNotations.
Open Scope list_scope.

(** ** Who does something knows it *)
(** Knowledge grows, and what is new is known to [a]. *)
Definition noted (n : nat) (a : aid) (kn kn' : aid -> list nat) (ev ev' : list nat) : Prop :=
  (forall b, incl (kn b) (kn' b)) /\ forall m, In m ev' -> In m ev \/ (m = n /\ In n (kn' a)).
Lemma noted_same n a kn ev : noted n a kn kn ev ev.
Proof. split; [intros b m I; exact I|auto]. Qed.
Lemma noted_upd n a kn k ev ev' : incl (kn a) k -> (forall m, In m ev' -> In m ev \/ (m = n /\ In n k)) -> noted n a kn (WeakSyncModel.updk kn a k) ev ev'.
Proof.
  intros K H. split.
  - intros b m I. unfold WeakSyncModel.updk. destruct (Nat.eqb_spec b a) as [->|]; auto.
  - intros m I. unfold WeakSyncModel.updk. rewrite Nat.eqb_refl. auto.
Qed.
Lemma stored_ids {A} k (l : WeakMem.place A) j n x l' : WeakMem.store k l j (n, x) = Some l' -> forall m, In m (map fst l') -> In m (map fst l) \/ m = n.
Proof.
  unfold WeakMem.store. destruct (some_known _ _); [discriminate|]. intros H. injection H as <-. intros m I.
  rewrite map_app in I. cbn in I. apply in_app_or in I.
  rewrite <- (firstn_skipn j l), map_app, in_app_iff. destruct I as [I|[<-|I]]; auto.
Qed.
Definition bdoer (y : bact) : aid := match y with BCall a _ | BStep a | BBuilt a _ | BCancel a => a end.
Lemma mstep_doer {B} (bs : B -> bact -> option (B * list (event nat nat))) ms asy alive s x s' h t :
  mstep B bs ms asy alive s x = Some (s', h, t) -> m_box s' = m_box s \/ exists y t', bdoer y = doer x /\ bs (m_box s) y = Some (m_box s', t').
Proof.
  intros H. unfold mstep in H. destruct x as [a k n|a u|a|a|a o|a].
  - destruct (m_thr s a); try discriminate H. destruct (find_method k ms); [|discriminate H]. injection H as <- _ _. auto.
  - destruct (m_thr s a); try discriminate H. destruct (use_ok _ u); [|discriminate H]. injection H as <- _ _. auto.
  - destruct (m_thr s a) as [|c|c|k|g]; try discriminate H; try (injection H as <- _ _; auto; fail). destruct c as [o g| |o k]; try discriminate H; try (injection H as <- _ _; auto; fail).
    destruct (bs (m_box s) (BCall a o)) as [[b t']|] eqn:E; [|discriminate H]. injection H as <- _ _. right. exists (BCall a o), t'. split; [reflexivity|exact E].
  - destruct (m_thr s a) as [|c|c|k|g]; try discriminate H.
    destruct (bs (m_box s) _) as [[b t']|] eqn:E; [|discriminate H]. injection H as <- _ _. right. eexists. exists t'. split; [|exact E]. reflexivity.
  - destruct (m_thr s a) as [|c|c|k|g]; try discriminate H.
    destruct (bs (m_box s) _) as [[b t']|] eqn:E; [|discriminate H]. injection H as <- _ _. right. eexists. exists t'. split; [|exact E]. reflexivity.
  - destruct (m_thr s a) as [|c|c|k|g]; try discriminate H; try (injection H as <- _ _; auto; fail).
    destruct (bs (m_box s) _) as [[b t']|] eqn:E; [|discriminate H]. injection H as <- _ _. right. eexists. exists t'. split; [|exact E]. reflexivity.
Qed.
Lemma sync_noted n i j w y w' t : wsync_box i j (sync_at n w) y = Some (w', t) ->
  noted n (bdoer y) (WeakSyncModel.knows w) (WeakSyncModel.knows w') (sync_events nat nat w) (sync_events nat nat w').
Proof.
  unfold sync_events. destruct y as [a o|a|a b|a]; cbn [wsync_box WeakSyncModel.wstep]; intros H; [| | |discriminate H].
  1,3: destruct (SyncProxyModel.step _ _) as [[c evs]|]; [|discriminate H]; injection H as <- _; apply noted_same.
  unfold WeakSyncModel.wcode in H. cbn [sync_at WeakSyncModel.core WeakSyncModel.flags WeakSyncModel.values WeakSyncModel.knows WeakSyncModel.kw WeakSyncModel.kr WeakSyncModel.next WeakSyncModel.log WeakSyncModel.racy] in H.
  set (tt := WeakSyncModel.touch_of _) in H.
  destruct (if loads_flag tt then load (WeakSyncModel.knows w a) (WeakSyncModel.flags w) i else _) as [f|] eqn:Lf; [|discriminate H].
  destruct (if loads_value tt then load (WeakSyncModel.knows w a) (WeakSyncModel.values w) i else _) as [v|] eqn:Lv; [|discriminate H].
  destruct (SyncProxyModel.step_code _ a) as [[c evs]|]; [|discriminate H].
  destruct (if stores_flag tt then WeakMem.store _ _ j (n, SyncProxyModel.flag c) else _) as [fl|] eqn:Sf; [|discriminate H].
  destruct (if stores_value tt then WeakMem.store _ _ j (n, SyncProxyModel.value c) else _) as [vl|] eqn:Sv; [|discriminate H].
  set (k1 := match tt with TNone => _ | TLoadFlag => _ | _ => _ end) in H.
  match type of H with context[transfer ?x ?y k1 ?p ?q] => pose proof (transfer_know x y k1 p q) as Tk; destruct (transfer x y k1 p q) as [[k2 kw'] kr'] end.
  injection H as <- _. cbn. apply noted_upd.
  - intros m I. apply Tk. subst k1. destruct tt; try exact I; right; exact I.
  - intros m I. rewrite !in_app_iff in *. destruct I as [I|[I|I]].
    + destruct (stores_flag tt) eqn:T; [|injection Sf as <-; auto]. apply (stored_ids _ _ _ _ _ _ Sf) in I as [I| ->]; [auto|].
      right. split; [reflexivity|]. apply Tk. subst k1. destruct tt; try discriminate T. left. reflexivity.
    + destruct (stores_value tt) eqn:T; [|injection Sv as <-; auto]. apply (stored_ids _ _ _ _ _ _ Sv) in I as [I| ->]; [auto|].
      right. split; [reflexivity|]. apply Tk. subst k1. destruct tt; try discriminate T; left; reflexivity.
    + destruct (loads_value tt || stores_value tt) eqn:T; [|auto]. cbn in I. destruct I as [<-|I]; [|auto].
      right. split; [reflexivity|]. apply Tk. subst k1. destruct tt; try discriminate T; left; reflexivity.
Qed.
Lemma async_noted n i j w y w' t : wasync_box i j (async_at n w) y = Some (w', t) ->
  noted n (bdoer y) (WeakAsyncModel.knows w) (WeakAsyncModel.knows w') (async_events nat nat w) (async_events nat nat w').
Proof.
  unfold async_events. destruct y as [a o|a|a b|a]; unfold wasync_box; cbn [WeakAsyncModel.wstep]; intros H.
  1,3,4: destruct (AsyncProxyModel.step _ _) as [[c evs]|]; [|discriminate H]; injection H as <- _; apply noted_same.
  unfold WeakAsyncModel.wcode in H. cbn [async_at WeakAsyncModel.core WeakAsyncModel.flags WeakAsyncModel.values WeakAsyncModel.knows WeakAsyncModel.kw WeakAsyncModel.kr WeakAsyncModel.next WeakAsyncModel.log WeakAsyncModel.racy] in H.
  set (tt := WeakAsyncModel.touch_of _) in H.
  destruct (if loads_flag tt then load (WeakAsyncModel.knows w a) (WeakAsyncModel.flags w) i else _) as [f|] eqn:Lf; [|discriminate H].
  destruct (if loads_value tt then load (WeakAsyncModel.knows w a) (WeakAsyncModel.values w) i else _) as [v|] eqn:Lv; [|discriminate H].
  destruct (AsyncProxyModel.step_code _ a) as [[c evs]|]; [|discriminate H].
  destruct (if stores_flag tt then WeakMem.store _ _ j (n, AsyncProxyModel.flag c) else _) as [fl|] eqn:Sf; [|discriminate H].
  destruct (if stores_value tt then WeakMem.store _ _ j (n, AsyncProxyModel.value c) else _) as [vl|] eqn:Sv; [|discriminate H].
  set (k1 := match tt with TNone => _ | TLoadFlag => _ | _ => _ end) in H.
  match type of H with context[transfer ?x ?y k1 ?p ?q] => pose proof (transfer_know x y k1 p q) as Tk; destruct (transfer x y k1 p q) as [[k2 kw'] kr'] end.
  injection H as <- _. cbn. apply noted_upd.
  - intros m I. apply Tk. subst k1. destruct tt; try exact I; right; exact I.
  - intros m I. rewrite !in_app_iff in *. destruct I as [I|[I|I]].
    + destruct (stores_flag tt) eqn:T; [|injection Sf as <-; auto]. apply (stored_ids _ _ _ _ _ _ Sf) in I as [I| ->]; [auto|].
      right. split; [reflexivity|]. apply Tk. subst k1. destruct tt; try discriminate T. left. reflexivity.
    + destruct (stores_value tt) eqn:T; [|injection Sv as <-; auto]. apply (stored_ids _ _ _ _ _ _ Sv) in I as [I| ->]; [auto|].
      right. split; [reflexivity|]. apply Tk. subst k1. destruct tt; try discriminate T; left; reflexivity.
    + destruct (loads_value tt || stores_value tt) eqn:T; [|auto]. cbn in I. destruct I as [<-|I]; [|auto].
      right. split; [reflexivity|]. apply Tk. subst k1. destruct tt; try discriminate T; left; reflexivity.
Qed.
Lemma lock_noted n i j b a o b' v th th' : wlstep n i j b a o = Some (b', v) ->
  noted n a (wl_knows b) (wl_knows b') (its_events (GLock b th)) (its_events (GLock b' th')).
Proof.
  unfold its_events. cbn. unfold wlstep. intros H. destruct (lstep (wl_core b) a o) as [c|]; [|discriminate H].
  match type of H with context[transfer ?x ?y ?z ?p ?q] => pose proof (transfer_know x y z p q) as Tk; destruct (transfer x y z p q) as [[k kw] kr] end.
  destruct o as [r| |x|]; cbn [swaps] in H;
    try (destruct (load k (wl_values b) i) as [z|]; [|discriminate H]);
    try (destruct (WeakMem.store k (wl_values b) j (n, x)) as [vl|] eqn:Sv; [|discriminate H]); injection H as <- _; cbn; apply noted_upd.
  all: try (intros m I; first [right; apply Tk; exact I|apply Tk; exact I]; fail).
  all: intros m I; rewrite ?in_app_iff in *; cbn in I; rewrite ?in_app_iff in *.
  - destruct I as [I|[<-|I]]; auto. right. split; [reflexivity|left; reflexivity].
  - destruct I as [I|[<-|I]]; auto. right. split; [reflexivity|left; reflexivity].
  - destruct I as [I|[<-|I]]; auto.
    + apply (stored_ids _ _ _ _ _ _ Sv) in I as [I| ->]; auto. right. split; [reflexivity|left; reflexivity].
    + right. split; [reflexivity|left; reflexivity].
  - auto.
Qed.
Lemma part_noted dflt user p n i j g x g' h t : wpart_step dflt user p n i j g x = Some (g', h, t) ->
  noted n (doer x) (wknows g) (wknows g') (its_events g) (its_events g').
Proof.
  intros H. unfold wpart_step in H. destruct (p_store p) as [[]|a o|], g as [s|s|b th|w th]; try discriminate H.
  - destruct (mstep _ _ _ _ _ _ _) as [[[s' h'] t']|] eqn:E; [|discriminate H]. injection H as <- _ _.
    apply mstep_doer in E. cbn [m_box] in E. destruct E as [E|(y & t1 & D & E)].
    + destruct s' as [bx th']. cbn in E. subst bx. apply noted_same.
    + rewrite <- D. exact (async_noted n i j (m_box s) y (m_box s') t1 E).
  - destruct (mstep _ _ _ _ _ _ _) as [[[s' h'] t']|] eqn:E; [|discriminate H]. injection H as <- _ _.
    apply mstep_doer in E. cbn [m_box] in E. destruct E as [E|(y & t1 & D & E)].
    + destruct s' as [bx th']. cbn in E. subst bx. apply noted_same.
    + rewrite <- D. exact (sync_noted n i j (m_box s) y (m_box s') t1 E).
  - destruct (as_lact x) as [y|] eqn:Ex; [|discriminate H]. destruct (wlmove _ _ _ _ _ _ _ _ _) as [[[b' th'] h']|] eqn:E; [|discriminate H]. injection H as <- _ _.
    assert (Same : b' = b -> noted n (doer x) (wknows (GLock b th)) (wknows (GLock b' th')) (its_events (GLock b th)) (its_events (GLock b' th'))).
    { intros ->. apply noted_same. }
    unfold wlmove in E. destruct y;
      try (destruct (lmove _ _ _ _ _) as [[? ?]|]; [|discriminate E]; injection E as <- _ _; apply Same; reflexivity).
    destruct (th a0) as [|c|c|g];
      try (destruct (lmove _ _ _ _ _) as [[? ?]|]; [|discriminate E]; injection E as <- _ _; apply Same; reflexivity).
    destruct c;
      try (destruct (lmove _ _ _ _ _) as [[? ?]|]; [|discriminate E]; injection E as <- _ _; apply Same; reflexivity).
    destruct (wlstep _ _ _ _ _ _) as [[b1 v]|] eqn:L; [|discriminate E]. injection E as <- <- _.
    assert (doer x = a0) as -> by (destruct x; try discriminate Ex; injection Ex as <-; reflexivity). exact (lock_noted n i j b _ _ b1 v th _ L).
  - destruct (wopen_step _ _ _ _ _ _ _ _) as [[[w' th'] h']|] eqn:E; [|discriminate H]. injection H as <- _ _.
    assert (Same : w' = w -> noted n (doer x) (wknows (GOpen w th)) (wknows (GOpen w' th')) (its_events (GOpen w th)) (its_events (GOpen w' th'))).
    { intros ->. apply noted_same. }
    unfold wopen_step in E. destruct x;
      try (destruct (open_step _ _ _ _ _ _) as [[[? ?] ?]|]; [|discriminate E]; injection E as <- _ _; apply Same; reflexivity).
    destruct (th a) as [|m v|m v|o];
      try (destruct (open_step _ _ _ _ _ _) as [[[? ?] ?]|]; [|discriminate E]; injection E as <- _ _; apply Same; reflexivity).
    destruct (load _ _ i) as [z|]; [|discriminate E]. destruct (open_call _ _ _ _ _ _) as [[o ?]|]; [|discriminate E]. injection E as <- _ _.
    unfold its_events. cbn. apply noted_upd; [intros k I; right; exact I|].
    intros k [I|[I|I]]; cbn; auto.
Qed.

(** All that happened in a field is known to somebody of [who]. *)
Definition witnessed (who : list (nat * aid)) (gs : list wfield) : Prop :=
  forall i g m, nth_error gs i = Some g -> In m (its_events g) -> m = 0 \/ exists a, In (i, a) who /\ In m (wknows g a).
Lemma told_knows a k g b : incl (wknows g b) (wknows (wtold a k g) b).
Proof.
  destruct g; cbn; intros m I; unfold WeakSyncModel.updk, WeakAsyncModel.updk; destruct (Nat.eqb_spec b a) as [->|]; try exact I; apply in_or_app; right; exact I.
Qed.
Section Object.
Variables (dflt : nat) (user : string -> nat) (ps : list part).
Lemma witnessed_more who who' gs : incl who who' -> witnessed who gs -> witnessed who' gs.
Proof. intros L W i g m E I. destruct (W i g m E I) as [->|(a & A & B)]; eauto. Qed.
Lemma witnessed_field who w i x p q fs h t : witnessed who (w_fields w) -> wfield_step dflt user ps w i x p q = Some (fs, h, t) ->
  witnessed ((i, doer x) :: who) fs.
Proof.
  intros W H. unfold wfield_step in H. destruct (nth_error ps i) as [pt|]; [|discriminate H].
  destruct (nth_error (w_fields w) i) as [g|] eqn:Eg; [|discriminate H].
  destruct (wpart_step _ _ _ _ _ _ _ _) as [[[g' h'] t']|] eqn:E; [|discriminate H]. injection H as <- _ _.
  destruct (part_noted _ _ _ _ _ _ _ _ _ _ _ E) as [Kn Ev]. intros j k m J I. rewrite replace_nth, Eg in J. destruct (Nat.eqb_spec i j) as [<-|N].
  - injection J as <-. apply Ev in I as [I|[-> I]].
    + destruct (W i g m Eg I) as [->|(a & A & B)]; [auto|]. right. exists a. split; [right; exact A|apply Kn, B].
    + right. exists (doer x). split; [left; reflexivity|exact I].
  - destruct (W j k m J I) as [->|(a & A & B)]; [auto|]. right. exists a. split; [right; exact A|exact B].
Qed.
Lemma witnessed_step who w x w' h t : witnessed who (w_fields w) -> wostep dflt user ps w x = Some (w', h, t) ->
  witnessed (took_part [x] ++ who) (w_fields w').
Proof.
  intros W H. destruct x as [i y p q|i b j a k n|i a j b]; cbn [wostep] in H.
  - destruct (held _ _ _); [discriminate H|]. destruct (wfield_step _ _ _ _ _ _ _ _) as [[[fs h'] t']|] eqn:E; [|discriminate H]. injection H as <- _ _.
    exact (witnessed_field _ _ _ _ _ _ _ _ _ W E).
  - destruct (_ && _); [|discriminate H]. destruct (wfield_step _ _ _ _ _ _ _ _) as [[[fs h'] t']|] eqn:E; [|discriminate H]. injection H as <- _ _.
    exact (witnessed_field _ _ _ _ _ _ _ _ _ W E).
  - destruct (nth_error (w_fields w) i) as [f|] eqn:Ef; [|discriminate H]. destruct (nth_error (w_fields w) j) as [g|] eqn:Eg; [|discriminate H].
    injection H as <- _ _. cbn. intros d k m E I. rewrite replace_nth, Eg in E. destruct (Nat.eqb_spec j d) as [<-|N]; [|exact (W d k m E I)].
    injection E as <-. rewrite told_events in I. destruct (W j g m Eg I) as [->|(e & A & B)]; [auto|]. right. exists e. split; [exact A|apply told_knows, B].
Qed.
Lemma witnessed_run : forall l who w w' h t, witnessed who (w_fields w) -> worun dflt user ps w l = Some (w', h, t) ->
  witnessed (took_part l ++ who) (w_fields w').
Proof.
  induction l as [|x l IH]; intros who w w' h t W H; cbn [worun] in H; [injection H as <- _ _; exact W|].
  destruct (wostep _ _ _ w x) as [[[w1 h1] t1]|] eqn:E; [|discriminate H]. destruct (worun _ _ _ w1 l) as [[[w2 h2] t2]|] eqn:E2; [|discriminate H].
  injection H as <- _ _. apply (witnessed_more (took_part l ++ took_part [x] ++ who)).
  - intros z I. change (took_part (x :: l)) with ((match x with WAct i y _ _ => [(i, doer y)] | WInner _ _ j a _ _ => [(j, a)] | WTells _ _ _ _ => [] end) ++ took_part l).
    unfold took_part in I at 2. cbn [flat_map] in I. rewrite !in_app_iff in *. cbn in I. tauto.
  - exact (IH _ _ _ _ _ (witnessed_step _ _ _ _ _ _ W E) E2).
Qed.
Theorem joined_know l w h t who : weak_object_run dflt user ps l = Some (w, h, t) -> incl (took_part l) who ->
  forall g m, In g (w_fields w) -> In m (its_events g) -> In m (gathered who (w_fields w)).
Proof.
  intros H Inc g m Ig Im. apply In_nth_error in Ig as (i & Ei).
  assert (W0 : witnessed [] (map wpart_start ps)).
  { intros k f e E I. left. apply nth_error_In, in_map_iff in E as (p & <- & _). exact (proj2 (start_fine p) e I). }
  destruct (witnessed_run l [] (mk_wobject (map wpart_start ps) 1 []) _ _ _ W0 H i g m Ei Im) as [->|(a & A & B)]; [left; reflexivity|]. rewrite app_nil_r in A.
  right. apply in_flat_map. exists (i, a). split; [apply Inc, A|]. cbn. rewrite Ei. exact B.
Qed.
End Object.

(** ** What is found *)
Lemma known_no_race k lg w : (forall m, In m (map fst lg) -> In m k) -> races k lg w = false.
Proof.
  intros H. unfold races. destruct (existsb _ lg) eqn:E; [|reflexivity]. apply existsb_exists in E as (x & I & E).
  apply andb_prop in E as [_ E]. rewrite (proj2 (memb_in _ _) (H _ (in_map fst _ _ I))) in E. discriminate E.
Qed.
Section Field.
Variables (c : sctx) (f : field) (o : option nat) (p : part).
Theorem wrest_is k g s : fmeans c f o p g s -> (forall m, In m (its_events g) -> In m k) ->
  (forall i j v r, wrest k i j (p_store p) g = Some (v, r) -> at_rest (p_store p) s = Some v /\ r = false) /\
  (forall v, at_rest (p_store p) s = Some v -> exists i j, wrest k i j (p_store p) g = Some (v, false)).
Proof.
  unfold fmeans, its_events. destruct (p_store p) as [[|]|b op|], g as [w|w|w th|w th], s as [s|s|s|v0 th']; cbn; try (intros []; fail).
  - intros [M _] K. destruct (WeakAsyncProofs.m_f _ _ M) as (lf & nf & Ef). destruct (WeakAsyncProofs.m_v _ _ M) as (lv & nv & Ev).
    rewrite (WeakAsyncProofs.m_w _ _ M), (WeakAsyncProofs.m_r _ _ M), (WeakAsyncProofs.m_b _ _ M).
    rewrite (known_no_race k (WeakAsyncModel.log (m_box w))) by (intros m I; apply K; rewrite !in_app_iff; auto).
    assert (Kf : In nf k) by (apply K; rewrite Ef, map_app, !in_app_iff; cbn; auto).
    assert (Kv : In nv k) by (apply K; rewrite Ev, (map_app fst lv), !in_app_iff; cbn; auto).
    rewrite Ef, Ev. split.
    + intros i j v r H. destruct (AsyncProxyModel.lw (m_box s)); [discriminate H|]. destruct (AsyncProxyModel.lr (m_box s)); [|discriminate H].
      destruct (load k (lf ++ _) i) as [mf|] eqn:Lf; [|discriminate H]. destruct (load k (lv ++ _) j) as [mv|] eqn:Lv; [|discriminate H].
      apply load_known in Lf as [-> _]; [|exact Kf]. apply load_known in Lv as [-> _]; [|exact Kv]. cbn [snd] in H.
      destruct (_ && _); [|discriminate H]. injection H as <- <-. auto.
    + intros v H. exists (List.length lf), (List.length lv). rewrite !load_last. cbn [snd].
      destruct (AsyncProxyModel.lw (m_box s)); [discriminate H|]. destruct (AsyncProxyModel.lr (m_box s)); [|discriminate H].
      destruct (_ && _); [|discriminate H]. injection H as <-. reflexivity.
  - intros [M _] K. destruct (WeakSyncProofs.m_f _ _ M) as (lf & nf & Ef). destruct (WeakSyncProofs.m_v _ _ M) as (lv & nv & Ev).
    rewrite (WeakSyncProofs.m_w _ _ M), (WeakSyncProofs.m_u _ _ M), (WeakSyncProofs.m_r _ _ M), (WeakSyncProofs.m_b _ _ M).
    rewrite (known_no_race k (WeakSyncModel.log (m_box w))) by (intros m I; apply K; rewrite !in_app_iff; auto).
    assert (Kf : In nf k) by (apply K; rewrite Ef, map_app, !in_app_iff; cbn; auto).
    assert (Kv : In nv k) by (apply K; rewrite Ev, (map_app fst lv), !in_app_iff; cbn; auto).
    rewrite Ef, Ev. split.
    + intros i j v r H. destruct (SyncProxyModel.lw (m_box s)); [discriminate H|]. destruct (SyncProxyModel.lu (m_box s)); [discriminate H|].
      destruct (SyncProxyModel.lr (m_box s)); [|discriminate H].
      destruct (load k (lf ++ _) i) as [mf|] eqn:Lf; [|discriminate H]. destruct (load k (lv ++ _) j) as [mv|] eqn:Lv; [|discriminate H].
      apply load_known in Lf as [-> _]; [|exact Kf]. apply load_known in Lv as [-> _]; [|exact Kv]. cbn [snd] in H.
      destruct (_ && _); [|discriminate H]. injection H as <- <-. auto.
    + intros v H. exists (List.length lf), (List.length lv). rewrite !load_last. cbn [snd].
      destruct (SyncProxyModel.lw (m_box s)); [discriminate H|]. destruct (SyncProxyModel.lu (m_box s)); [discriminate H|].
      destruct (SyncProxyModel.lr (m_box s)); [|discriminate H].
      destruct (_ && _); [|discriminate H]. injection H as <-. reflexivity.
  - intros [M _] K. destruct (lm_v _ _ M) as (lv & nv & Ev). rewrite (lm_lw _ _ M), (lm_lr _ _ M).
    rewrite (known_no_race k (wl_log w)) by (intros m I; apply K; rewrite !in_app_iff; auto).
    assert (Kv : In nv k) by (apply K; rewrite Ev, (map_app fst lv), !in_app_iff; cbn; auto).
    rewrite Ev. split.
    + intros i j v r H. destruct (b_lw (l_box s)); [discriminate H|]. destruct (b_lr (l_box s)); [|destruct op; discriminate H].
      destruct (load k (lv ++ _) j) as [mv|] eqn:Lv; [|discriminate H]. apply load_known in Lv as [-> _]; [|exact Kv]. cbn [snd] in H.
      destruct op; [injection H as <- <-; auto|]. destruct (b_val (l_box s)); cbn in H; [injection H as <- <-; auto|discriminate H].
    + intros v H. exists 0, (List.length lv). rewrite load_last. cbn [snd].
      destruct op; destruct (b_lw (l_box s)); try discriminate H; destruct (b_lr (l_box s)); try discriminate H.
      * injection H as <-. reflexivity.
      * destruct (b_val (l_box s)); cbn; [injection H as <-; reflexivity|discriminate H].
  - intros (V & _) K. rewrite V in *.
    rewrite (known_no_race k (wn_log w)) by (intros m I; apply K; cbn; auto). split.
    + intros i j v r H. destruct (load k [(0, v0)] j) as [z|] eqn:Lv; [|discriminate H].
      apply (load_known k [] (0, v0)) in Lv as [-> _]; [|apply K; left; reflexivity]. injection H as <- <-. auto.
    + intros v H. injection H as <-. exists 0, 0. pose proof (load_last k [] (0, v0)) as Q. cbn [app List.length] in Q. rewrite Q. reflexivity.
Qed.
End Field.

(** ** Who takes a content races with everybody it does not know of *)
Lemma races_write k : forall l, WeakMem.races k l true = false <-> forall m, In m (map fst l) -> In m k.
Proof.
  unfold WeakMem.races. intros l. split.
  - induction l as [|[m b] l IH]; [intros _ ? []|]. cbn. intros H. apply orb_false_iff in H as [H1 H2].
    intros z [<-|I]; [|exact (IH H2 z I)]. apply negb_false_iff in H1. apply existsb_exists in H1 as (z & I & E). apply Nat.eqb_eq in E. subst. exact I.
  - induction l as [|[m b] l IH]; [reflexivity|]. cbn. intros H. apply orb_false_iff. split; [|apply IH; intros z I; apply H; right; exact I].
    apply negb_false_iff. apply existsb_exists. exists m. split; [apply H; left; reflexivity|]. apply Nat.eqb_refl.
Qed.
Lemma wrest_races k i j st g v r : wrest k i j st g = Some (v, r) -> (r = false <-> forall m, In m (accesses g) -> In m k).
Proof.
  unfold wrest, accesses. intros H.
  destruct st as [[|]|a op|], g as [w|w|w th|w th]; try discriminate H;
    repeat (match type of H with context[match ?x with _ => _ end] => destruct x eqn:?; try discriminate H end);
    injection H as <- <-; apply races_write.
Qed.
