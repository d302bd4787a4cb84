(** Events of a shared object on weak memory have numbers of their own. *)
From Coq Require Import List Bool String Arith Lia.
From Verif Require Import ProxyTypes ArgsModel CtxModel GuardCell RustAst RustSem CommonGen StructGen CodegenSpec FieldSpec FieldRun ThreadSpec ThreadModel LockedModel ObjectSpec ObjectModel
  WeakMem WeakFresh WeakObjectModel.
From Verif Require SyncProxyModel AsyncProxyModel WeakSyncModel WeakAsyncModel.
Import ListNotations.
Open Scope list_scope.

(** Numbers of the writes of a flag (sync/fxproxy.rs:71, async/fxproxy.rs:87), of a content
    (sync/fxproxy.rs:70, sync/fxlock.rs:12), of the accesses to a content, and what a lock passes on. *)
Definition flag_writes (g : wfield) : list nat :=
  match g with
  | GSync s => map fst (WeakSyncModel.flags (m_box s)) | GAsync s => map fst (WeakAsyncModel.flags (m_box s)) | _ => []
  end.
Definition value_writes (g : wfield) : list nat :=
  match g with
  | GSync s => map fst (WeakSyncModel.values (m_box s)) | GAsync s => map fst (WeakAsyncModel.values (m_box s))
  | GLock b _ => map fst (wl_values b) | GOpen w _ => [fst (wn_value w)]
  end.
Definition accesses (g : wfield) : list nat :=
  match g with
  | GSync s => map fst (WeakSyncModel.log (m_box s)) | GAsync s => map fst (WeakAsyncModel.log (m_box s))
  | GLock b _ => map fst (wl_log b) | GOpen w _ => map fst (wn_log w)
  end.
Definition released (g : wfield) : list nat * list nat :=
  match g with
  | GSync s => (WeakSyncModel.kw (m_box s), WeakSyncModel.kr (m_box s)) | GAsync s => (WeakAsyncModel.kw (m_box s), WeakAsyncModel.kr (m_box s))
  | GLock b _ => (wl_kw b, wl_kr b) | GOpen _ _ => ([], [])
  end.
Definition fine (n : nat) (g : wfield) : Prop :=
  numbered n (wknows g) (fst (released g)) (snd (released g)) (flag_writes g) (value_writes g) (accesses g).
Definition its_events (g : wfield) : list nat := flag_writes g ++ value_writes g ++ accesses g.

Lemma sync_fine n i j w y w' t : sync_numbered nat nat n w -> wsync_box i j (sync_at n w) y = Some (w', t) ->
  sync_numbered nat nat (S n) w' /\ forall m, In m (sync_events nat nat w') -> m = n \/ In m (sync_events nat nat w).
Proof.
  intros Ok H.
  assert (X : exists x, WeakSyncModel.wstep (sync_at n w) x = Some (w', t)) by (destruct y; try discriminate H; eexists; exact H).
  destruct X as (x & X). destruct (sync_step nat nat (sync_at n w) x w' t Ok X) as (A & B & C). cbn in B. split; [|exact C].
  apply (numbered_more (WeakSyncModel.next w')); [lia|exact A].
Qed.
Lemma async_fine n i j w y w' t : async_numbered nat nat n w -> wasync_box i j (async_at n w) y = Some (w', t) ->
  async_numbered nat nat (S n) w' /\ forall m, In m (async_events nat nat w') -> m = n \/ In m (async_events nat nat w).
Proof.
  intros Ok H. destruct (async_step nat nat (async_at n w) _ w' t Ok H) as (A & B & C). cbn in B. split; [|exact C].
  apply (numbered_more (WeakAsyncModel.next w')); [lia|exact A].
Qed.
(** The container makes at most one step. *)
Lemma mstep_box {B} (bs : B -> bact -> option (B * list (event nat nat))) ms asy alive s x s' h t :
  mstep B bs ms asy alive s x = Some (s', h, t) -> m_box s' = m_box s \/ exists y t', bs (m_box s) y = Some (m_box s', t').
Proof.
  intros H. unfold mstep in H. destruct x as [a k n|a u|a|a|a o|a].
  - destruct (m_thr s a); try discriminate H. destruct (find_method k ms); [|discriminate H]. injection H as <- _ _. auto.
  - destruct (m_thr s a); try discriminate H. destruct (use_ok _ u); [|discriminate H]. injection H as <- _ _. auto.
  - destruct (m_thr s a) as [|c|c|k|g]; try discriminate H; try (injection H as <- _ _; auto; fail). destruct c as [o g| |o k]; try discriminate H; try (injection H as <- _ _; auto; fail).
    destruct (bs (m_box s) (BCall a o)) as [[b t']|] eqn:E; [|discriminate H]. injection H as <- _ _. right. exists (BCall a o), t'. exact E.
  - destruct (m_thr s a) as [|c|c|k|g]; try discriminate H.
    destruct (bs (m_box s) _) as [[b t']|] eqn:E; [|discriminate H]. injection H as <- _ _. right. eexists. exists t'. exact E.
  - destruct (m_thr s a) as [|c|c|k|g]; try discriminate H.
    destruct (bs (m_box s) _) as [[b t']|] eqn:E; [|discriminate H]. injection H as <- _ _. right. eexists. exists t'. exact E.
  - destruct (m_thr s a) as [|c|c|k|g]; try discriminate H; try (injection H as <- _ _; auto; fail).
    destruct (bs (m_box s) _) as [[b t']|] eqn:E; [|discriminate H]. injection H as <- _ _. right. eexists. exists t'. exact E.
Qed.
Lemma lock_fine n i j b a o b' v th th' : fine n (GLock b th) -> wlstep n i j b a o = Some (b', v) ->
  fine (S n) (GLock b' th') /\ forall m, In m (its_events (GLock b' th')) -> m = n \/ In m (its_events (GLock b th)).
Proof.
  unfold fine, its_events. cbn. intros [A B C D [E E'] [F F']] H. unfold wlstep in H. destruct (lstep (wl_core b) a o) as [c|]; [|discriminate H].
  destruct (transfer _ _ _ _ _) as [[k kw] kr] eqn:Tr. destruct (transfer_below n _ _ _ _ _ _ _ _ (A a) B C Tr) as (K & B' & C').
  assert (Up : forall l, below n l -> below (S n) l) by (intros l; apply below_more; lia).
  assert (Kn : forall q, below (S n) q -> forall d, below (S n) (WeakSyncModel.updk (wl_knows b) a q d)).
  { intros q Q d. unfold WeakSyncModel.updk. destruct (Nat.eqb d a); [exact Q|apply Up, A]. }
  assert (Acc : forall vl w, (below (S n) (map fst vl) /\ NoDup (map fst vl)) /\ (forall m, In m (map fst vl) -> m = n \/ In m (map fst (wl_values b))) ->
    b' = mk_wlbox c vl (WeakSyncModel.updk (wl_knows b) a (n :: k)) kw kr ((n, w) :: wl_log b) (wl_racy b || races k (wl_log b) w) ->
    numbered (S n) (wl_knows b') (wl_kw b') (wl_kr b') [] (map fst (wl_values b')) (map fst (wl_log b')) /\
    forall m, In m (map fst (wl_values b') ++ map fst (wl_log b')) -> m = n \/ In m (map fst (wl_values b) ++ map fst (wl_log b))).
  { intros vl w [V V'] ->. cbn. split.
    - constructor; cbn.
      + apply Kn. apply below_cons; [lia|apply Up, K].
      + apply Up, B'.
      + apply Up, C'.
      + split; [intros m []|constructor].
      + exact V.
      + split; [apply below_cons; [lia|apply Up, F]|]. constructor; [intros I; specialize (F n I); lia|exact F'].
    - intros m I. rewrite in_app_iff in *. destruct I as [I|[I|I]]; [destruct (V' m I); auto|auto|auto]. }
  destruct o as [r| |x|].
  all: cbn [swaps] in H;
    try (destruct (load k (wl_values b) i) as [z|]; [|discriminate H];
      try (destruct (WeakMem.store k (wl_values b) j (n, x)) as [vl|] eqn:Sv; [|discriminate H]); injection H as H _; symmetry in H;
      eapply Acc; [|exact H]; first [destruct (store_numbers _ _ _ _ _ _ Sv E E') as (X & Y & Z); auto|split; [split; [apply Up, E|exact E']|auto]]; fail).
  all: injection H as <- _; cbn; split; [constructor; cbn|auto].
  - apply Kn, Up, K.
  - apply Up, B'.
  - apply Up, C'.
  - split; [intros m []|constructor].
  - split; [apply Up, E|exact E'].
  - split; [apply Up, F|exact F'].
Qed.

Lemma fine_more n n' g : n <= n' -> fine n g -> fine n' g.
Proof. intros L. apply numbered_more, L. Qed.
Lemma part_fine dflt user p n i j g x g' h t : fine n g -> wpart_step dflt user p n i j g x = Some (g', h, t) ->
  fine (S n) g' /\ forall m, In m (its_events g') -> m = n \/ In m (its_events g).
Proof.
  intros Fi H. unfold wpart_step in H. destruct (p_store p) as [[]|a o|], g as [s|s|b th|w th]; try discriminate H.
  - destruct (mstep _ _ _ _ _ _ _) as [[[s' h'] t']|] eqn:E; [|discriminate H]. injection H as <- _ _.
    apply mstep_box in E. cbn [m_box] in E. destruct E as [E|(y & t1 & E)].
    + destruct s' as [bx th']. cbn in E. subst bx. split; [exact (fine_more n (S n) (GAsync s) (le_S _ _ (le_n n)) Fi)|intros m I; right; exact I].
    + exact (async_fine n i j (m_box s) y (m_box s') t1 Fi E).
  - destruct (mstep _ _ _ _ _ _ _) as [[[s' h'] t']|] eqn:E; [|discriminate H]. injection H as <- _ _.
    apply mstep_box in E. cbn [m_box] in E. destruct E as [E|(y & t1 & E)].
    + destruct s' as [bx th']. cbn in E. subst bx. split; [exact (fine_more n (S n) (GSync s) (le_S _ _ (le_n n)) Fi)|intros m I; right; exact I].
    + exact (sync_fine n i j (m_box s) y (m_box s') t1 Fi E).
  - destruct (as_lact x) as [y|]; [|discriminate H]. destruct (wlmove _ _ _ _ _ _ _ _ _) as [[[b' th'] h']|] eqn:E; [|discriminate H]. injection H as <- _ _.
    assert (Same : b' = b -> fine (S n) (GLock b' th') /\ forall m, In m (its_events (GLock b' th')) -> m = n \/ In m (its_events (GLock b th))).
    { intros ->. split; [exact (fine_more n (S n) (GLock b th) (le_S _ _ (le_n n)) Fi)|auto]. }
    unfold wlmove in E. destruct y;
      try (destruct (lmove _ _ _ _ _) as [[? ?]|]; [|discriminate E]; injection E as <- _ _; apply Same; reflexivity).
    destruct (th a0) as [|c|c|g];
      try (destruct (lmove _ _ _ _ _) as [[? ?]|]; [|discriminate E]; injection E as <- _ _; apply Same; reflexivity).
    destruct c;
      try (destruct (lmove _ _ _ _ _) as [[? ?]|]; [|discriminate E]; injection E as <- _ _; apply Same; reflexivity).
    destruct (wlstep _ _ _ _ _ _) as [[b1 v]|] eqn:L; [|discriminate E]. injection E as <- <- _. exact (lock_fine n i j b _ _ b1 v th _ Fi L).
  - destruct (wopen_step _ _ _ _ _ _ _ _) as [[[w' th'] h']|] eqn:E; [|discriminate H]. injection H as <- _ _.
    assert (Same : w' = w -> fine (S n) (GOpen w' th') /\ forall m, In m (its_events (GOpen w' th')) -> m = n \/ In m (its_events (GOpen w th))).
    { intros ->. split; [exact (fine_more n (S n) (GOpen w th) (le_S _ _ (le_n n)) Fi)|auto]. }
    unfold wopen_step in E. destruct x;
      try (destruct (open_step _ _ _ _ _ _) as [[[? ?] ?]|]; [|discriminate E]; injection E as <- _ _; apply Same; reflexivity).
    destruct (th a) as [|m v|m v|o];
      try (destruct (open_step _ _ _ _ _ _) as [[[? ?] ?]|]; [|discriminate E]; injection E as <- _ _; apply Same; reflexivity).
    destruct (load _ _ i) as [z|]; [|discriminate E]. destruct (open_call _ _ _ _ _ _) as [[o ?]|]; [|discriminate E]. injection E as <- _ _.
    destruct Fi as [A B C D [E1 E2] [F F']]. unfold fine, its_events. cbn in *.
    assert (Up : forall l, below n l -> below (S n) l) by (intros l; apply below_more; lia). split.
    + constructor; cbn.
      * intros b. unfold WeakSyncModel.updk. destruct (Nat.eqb b a); [apply below_cons; [lia|apply Up, A]|apply Up, A].
      * intros k [].
      * intros k [].
      * split; [intros k []|constructor].
      * split; [apply Up, E1|exact E2].
      * split; [apply below_cons; [lia|apply Up, F]|]. constructor; [intros I; specialize (F n I); lia|exact F'].
    + intros k [I|[I|I]]; auto.
Qed.
Lemma start_fine p : fine 1 (wpart_start p) /\ forall m, In m (its_events (wpart_start p)) -> m = 0.
Proof.
  assert (Z : below 1 [0]) by (intros m [<-|[]]; lia). assert (N : below 1 []) by (intros m []).
  assert (D0 : NoDup [0]) by (constructor; [intros []|constructor]). assert (D1 : NoDup (@nil nat)) by constructor.
  unfold wpart_start. destruct (p_store p) as [[]|a o|]; unfold fine, its_events; cbn; (split; [constructor; cbn; auto|]); intuition.
Qed.
Lemma told_fine n a k g : fine n g -> below n k -> fine n (wtold a k g).
Proof. destruct g; unfold fine; cbn; apply numbered_told. Qed.
Lemma told_events a k g : its_events (wtold a k g) = its_events g.
Proof. destruct g; reflexivity. Qed.

Section Object.
Variables (dflt : nat) (user : string -> nat) (ps : list part).
Record whole (w : wobject) : Prop := mk_whole {
  wh_fine : forall g, In g (w_fields w) -> fine (w_next w) g;
  wh_apart : forall i j g g' m, nth_error (w_fields w) i = Some g -> nth_error (w_fields w) j = Some g' -> i <> j ->
    In m (its_events g) -> In m (its_events g') -> m = 0
}.
Lemma events_below n g m : fine n g -> In m (its_events g) -> m < n.
Proof. intros [_ _ _ [D _] [E _] [F _]] I. unfold its_events in I. rewrite !in_app_iff in I. destruct I as [I|[I|I]]; auto. Qed.
Lemma replace_nth {A} (l : list A) i x j : nth_error (replace l i x) j = if Nat.eqb i j then match nth_error l i with Some _ => Some x | None => None end else nth_error l j.
Proof.
  revert i j. induction l as [|y l IH]; intros [|i] [|j]; cbn; try reflexivity.
  - destruct (Nat.eqb i j); reflexivity.
  - apply IH.
Qed.
Lemma whole_field w i x p q fs h t inn : whole w -> wfield_step dflt user ps w i x p q = Some (fs, h, t) -> whole (mk_wobject fs (S (w_next w)) inn).
Proof.
  intros [Fi Ap] H. unfold wfield_step in H. destruct (nth_error ps i) as [pt|]; [|discriminate H].
  destruct (nth_error (w_fields w) i) as [g|] eqn:Eg; [|discriminate H].
  destruct (wpart_step _ _ _ _ _ _ _ _) as [[[g' h'] t']|] eqn:E; [|discriminate H]. injection H as <- _ _.
  pose proof (Fi g (nth_error_In _ _ Eg)) as Fg. destruct (part_fine _ _ _ _ _ _ _ _ _ _ _ Fg E) as [Fg' Ev].
  split; cbn [w_fields w_next].
  - intros k I. apply In_nth_error in I as (j & J). rewrite replace_nth, Eg in J. destruct (Nat.eqb i j).
    + injection J as <-. exact Fg'.
    + apply (fine_more (w_next w)); [lia|]. exact (Fi k (nth_error_In _ _ J)).
  - intros a b k k' m Ea Eb N Ia Ib. rewrite replace_nth, Eg in Ea, Eb.
    destruct (Nat.eqb_spec i a) as [<-|Na], (Nat.eqb_spec i b) as [<-|Nb]; [congruence| | |exact (Ap a b k k' m Ea Eb N Ia Ib)].
    + injection Ea as <-. apply Ev in Ia as [->|Ia]; [|exact (Ap i b g k' m Eg Eb N Ia Ib)].
      pose proof (events_below _ _ _ (Fi k' (nth_error_In _ _ Eb)) Ib). lia.
    + injection Eb as <-. apply Ev in Ib as [->|Ib]; [|exact (Ap a i k g m Ea Eg N Ia Ib)].
      pose proof (events_below _ _ _ (Fi k (nth_error_In _ _ Ea)) Ia). lia.
Qed.
Lemma whole_step w x w' h t : whole w -> wostep dflt user ps w x = Some (w', h, t) -> whole w'.
Proof.
  intros Wh H. destruct x as [i y p q|i b j a k n|i a j b]; cbn [wostep] in H.
  - destruct (held _ _ _); [discriminate H|]. destruct (wfield_step _ _ _ _ _ _ _ _) as [[[fs h'] t']|] eqn:E; [|discriminate H]. injection H as <- _ _.
    exact (whole_field _ _ _ _ _ _ _ _ _ Wh E).
  - destruct (_ && _); [|discriminate H]. destruct (wfield_step _ _ _ _ _ _ _ _) as [[[fs h'] t']|] eqn:E; [|discriminate H]. injection H as <- _ _.
    exact (whole_field _ _ _ _ _ _ _ _ _ Wh E).
  - destruct (nth_error (w_fields w) i) as [f|] eqn:Ef; [|discriminate H]. destruct (nth_error (w_fields w) j) as [g|] eqn:Eg; [|discriminate H].
    injection H as <- _ _. destruct Wh as [Fi Ap].
    assert (Q : forall c k, nth_error (replace (w_fields w) j (wtold b (wknows f a) g)) c = Some k ->
      exists k0, nth_error (w_fields w) c = Some k0 /\ its_events k = its_events k0 /\ (fine (w_next w) k0 -> fine (w_next w) k)).
    { intros c k E. rewrite replace_nth, Eg in E. destruct (Nat.eqb_spec j c) as [<-|N]; [|exists k; auto].
      injection E as <-. exists g. split; [exact Eg|]. split; [apply told_events|]. intros F. apply told_fine; [exact F|].
      destruct (Fi f (nth_error_In _ _ Ef)) as [A _ _ _ _ _]. apply A. }
    split; cbn [w_fields w_next].
    + intros k I. apply In_nth_error in I as (c & I). destruct (Q c k I) as (k0 & E & _ & F). exact (F (Fi k0 (nth_error_In _ _ E))).
    + intros c d k k' m Ec Ed N Ic Id. destruct (Q c k Ec) as (k0 & E0 & V0 & _). destruct (Q d k' Ed) as (k1 & E1 & V1 & _).
      rewrite V0 in Ic. rewrite V1 in Id. exact (Ap c d k0 k1 m E0 E1 N Ic Id).
Qed.
Lemma whole_run : forall l w w' h t, whole w -> worun dflt user ps w l = Some (w', h, t) -> whole w'.
Proof.
  induction l as [|x l IH]; intros w w' h t Wh H; cbn [worun] in H; [injection H as <- _ _; exact Wh|].
  destruct (wostep _ _ _ w x) as [[[w1 h1] t1]|] eqn:E; [|discriminate H]. destruct (worun _ _ _ w1 l) as [[[w2 h2] t2]|] eqn:E2; [|discriminate H].
  injection H as <- _ _. exact (IH _ _ _ _ (whole_step _ _ _ _ _ Wh E) E2).
Qed.
Theorem events_apart l w h t : weak_object_run dflt user ps l = Some (w, h, t) ->
  (forall g, In g (w_fields w) -> NoDup (flag_writes g) /\ NoDup (value_writes g) /\ NoDup (accesses g) /\
    (forall m, In m (its_events g) -> m < w_next w) /\ forall a m, In m (wknows g a) -> m < w_next w) /\
  (forall i j g g' m, nth_error (w_fields w) i = Some g -> nth_error (w_fields w) j = Some g' -> i <> j ->
    In m (its_events g) -> In m (its_events g') -> m = 0).
Proof.
  intros H. assert (Wh : whole w).
  { apply (whole_run l _ w h t) in H; [exact H|]. split; cbn [w_fields w_next].
    - intros g I. apply in_map_iff in I as (p & <- & _). apply start_fine.
    - intros i j g g' m Ei _ _ I _. apply nth_error_In, in_map_iff in Ei as (p & <- & _). exact (proj2 (start_fine p) m I). }
  destruct Wh as [Fi Ap]. split; [|exact Ap]. intros g I. pose proof (Fi g I) as F. pose proof (fun m => events_below _ _ m F) as V.
  destruct F as [A _ _ [_ D] [_ E] [_ F]]. repeat split; auto.
Qed.
End Object.
