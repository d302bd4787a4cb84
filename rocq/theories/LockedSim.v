(** Locked fields used by many activities refine the cell of FieldSpec.v. *)
From Coq Require Import List Bool String Arith Lia.
From Verif Require Import ProxyTypes ArgsModel RustAst FieldSpec FieldRun ThreadSpec LockedModel LockedScripts.
Import ListNotations.

Section Sim.
Variables (asy opt keeps : bool).
Variable bld : nat -> outcome nat nat.
Variable dflt : nat.
Variable ms : list mdecl.
Hypothesis STD : forall m n, In m ms -> l_kind opt (m_kind m) = true /\ alike (lscript asy opt m n) (lstd opt keeps (m_kind m) n).
Hypothesis LZ : forall m, In m ms -> m_async m = true -> asy = true.
Notation v := (mk_view (if opt then Maybe else Bare) Blocking keeps).
Notation wst := (wstep bld dflt v asy).
Notation wrs := (wruns bld dflt v asy).

Definition stage (k : hkind) (n : nat) : option (bool * lop * (option nat -> option answer)) :=
  match k with
  | KAccessor => if keeps then None else Some (false, LLook, tells opt)
  | KSetter => Some (true, LSwap (Some n), tells opt)
  | KClearer => Some (true, LSwap None, tells opt)
  | KPredicate => Some (false, LLook, fun o => Some (l_has o))
  | _ => None
  end.
Inductive ltied : lthr -> wstat -> option bool -> Prop :=
| lt_idle : ltied LIdle WFree None
| lt_fresh c k n : asy = true -> l_kind opt k = true -> alike c (lstd opt keeps k n) -> ltied (LFresh c) (WAsked k n) None
| lt_asked c k n : l_kind opt k = true -> alike c (lstd opt keeps k n) -> ltied (LDoing c) (WAsked k n) None
| lt_mid c k n w o e : l_kind opt k = true -> stage k n = Some (w, o, e) -> alike c (LOp o (fun z => l_end (e z))) ->
    ltied (LDoing c) (WAsked k n) (Some w)
| lt_leaving c an w : alike c (LOp LDrop (fun _ => LFin (ORet an) None)) -> ltied (LDoing c) (WDone (ORet an) None) (Some w)
| lt_fin o g : (forall h, g = Some h -> gd_raw h = false) -> ltied (LDoing (LFin o g)) (WDone o g) (option_map gd_write g)
| lt_keep g : gd_raw g = false -> ltied (LKeeping g) (WKeeps g) (Some (gd_write g))
| lt_using g u : gd_raw g = false -> luse_ok opt g u = true -> ltied (LDoing (luse opt g u)) (WUsing g u) (Some (gd_write g)).

(** The guard kept in the cell. *)
Definition keeps_of (w : wstat) : option bool :=
  match w with WKeeps h | WUsing h _ | WDone _ (Some h) => Some (gd_write h) | _ => None end.
Definition rdr (w : wstat) : bool := match keeps_of w with Some false => true | _ => false end.
Definition wtr (w : wstat) : bool := match keeps_of w with Some true => true | _ => false end.
Lemma tied_keeps t w h b : ltied t w h -> keeps_of w = Some b -> h = Some b.
Proof. intros T; destruct T; cbn; intros E; try discriminate E; auto; destruct g; auto; discriminate E. Qed.

Definition upd {A} (f : aid -> A) (a : aid) (y : A) : aid -> A := fun b => if Nat.eqb b a then y else f b.
Lemma upd_same {A} (f : aid -> A) a y : upd f a y a = y.
Proof. unfold upd. now rewrite Nat.eqb_refl. Qed.
Lemma upd_other {A} (f : aid -> A) a b y : b <> a -> upd f a y b = f b.
Proof. intros N. unfold upd. apply Nat.eqb_neq in N. now rewrite N. Qed.

(** What the lock knows, what the cell knows. *)
Record locked (lr : list aid) (lw : option aid) (hold : aid -> option bool) (x : aid -> wstat) (c : cellst) : Prop := {
  k_nodup : NoDup lr;
  k_lr : forall a, In a lr <-> hold a = Some false;
  k_lw : forall a, lw = Some a <-> hold a = Some true;
  k_excl : lw <> None -> lr = [];
  k_kept : forall a b, keeps_of (x a) = Some b -> hold a = Some b;
  k_readers : c_readers c = List.length (filter (fun a => rdr (x a)) lr);
  k_writer : c_writer c = match lw with Some a => wtr (x a) | None => false end
}.

Lemma count_upd lr x a w : rdr w = rdr (x a) ->
  filter (fun b => rdr (upd x a w b)) lr = filter (fun b => rdr (x b)) lr.
Proof.
  intros E. apply filter_ext. intros b. unfold upd. destruct (Nat.eqb_spec b a); subst; auto.
Qed.
Lemma count_away lr x a w : ~ In a lr -> filter (fun b => rdr (upd x a w b)) lr = filter (fun b => rdr (x b)) lr.
Proof.
  intros N. apply filter_ext_in. intros b I. rewrite upd_other; [reflexivity|]. intros ->. auto.
Qed.
Definition counts (c : cellst) (n : nat) (w : bool) : cellst := mk_cellst (c_val c) n w (c_builds c).

(** Nothing about locks changes. *)
Lemma locked_same lr lw hold x c a w : locked lr lw hold x c -> keeps_of w = keeps_of (x a) ->
  locked lr lw hold (upd x a w) c.
Proof.
  intros [N L W X K R Wr] E. assert (Er : rdr w = rdr (x a)) by (unfold rdr; now rewrite E).
  assert (Ew : wtr w = wtr (x a)) by (unfold wtr; now rewrite E).
  constructor; auto.
  - intros b p. unfold upd. destruct (Nat.eqb_spec b a); subst; [rewrite E|]; apply K.
  - rewrite R. now rewrite count_upd.
  - rewrite Wr. destruct lw as [z|]; [|reflexivity]. unfold upd. destruct (Nat.eqb_spec z a); subst; auto.
Qed.
Lemma locked_val lr lw hold x c c' : locked lr lw hold x c -> c_readers c' = c_readers c -> c_writer c' = c_writer c ->
  locked lr lw hold x c'.
Proof. intros [N L W X K R Wr] E1 E2. constructor; auto; congruence. Qed.
Lemma locked_read lr hold x c a w : locked lr None hold x c -> hold a = None ->
  keeps_of w = None \/ keeps_of w = Some false ->
  locked (a :: lr) None (upd hold a (Some false)) (upd x a w) (counts c (if rdr w then S (c_readers c) else c_readers c) (c_writer c)).
Proof.
  intros [N L W X K R Wr] Ha Kw. assert (Na : ~ In a lr) by (rewrite L, Ha; discriminate). constructor.
  - constructor; auto.
  - intros b. destruct (Nat.eq_dec b a) as [->|D].
    + rewrite upd_same. split; [reflexivity|left; reflexivity].
    + rewrite upd_other by auto. rewrite <- L. split; [intros [Q|Q]; [congruence|auto]|right; auto].
  - intros b. split; [discriminate|]. destruct (Nat.eq_dec b a) as [->|D].
    + rewrite upd_same. discriminate.
    + rewrite upd_other by auto. apply W.
  - congruence.
  - intros b p. destruct (Nat.eq_dec b a) as [->|D].
    + rewrite !upd_same. intros Q. destruct Kw as [Kw|Kw]; rewrite Kw in Q; [discriminate|exact Q].
    + rewrite !upd_other by auto. apply K.
  - cbn. rewrite upd_same, count_away by auto. rewrite R. now destruct (rdr w).
  - cbn. exact Wr.
Qed.
Lemma locked_write hold x c a w : locked [] None hold x c -> hold a = None ->
  keeps_of w = None \/ keeps_of w = Some true ->
  locked [] (Some a) (upd hold a (Some true)) (upd x a w) (counts c (c_readers c) (wtr w)).
Proof.
  intros [N L W X K R Wr] Ha Kw. constructor.
  - constructor.
  - intros b. split; [intros []|]. destruct (Nat.eq_dec b a) as [->|D].
    + rewrite upd_same. discriminate.
    + rewrite upd_other by auto. apply L.
  - intros b. destruct (Nat.eq_dec b a) as [->|D].
    + rewrite upd_same. split; reflexivity.
    + rewrite upd_other by auto. split; [congruence|]. intros Q. apply W in Q. discriminate.
  - reflexivity.
  - intros b p. destruct (Nat.eq_dec b a) as [->|D].
    + rewrite !upd_same. intros Q. destruct Kw as [Kw|Kw]; rewrite Kw in Q; [discriminate|exact Q].
    + rewrite !upd_other by auto. apply K.
  - exact R.
  - cbn. now rewrite upd_same.
Qed.
Lemma filter_drop (p : aid -> bool) a lr : NoDup lr -> In a lr ->
  List.length (filter p lr) = (if p a then 1 else 0) + List.length (filter p (filter (fun r => negb (Nat.eqb r a)) lr)).
Proof.
  induction lr as [|b lr IH]; intros N I; [destruct I|]. inversion N as [|? ? Nb Nl]; subst.
  destruct (Nat.eq_dec b a) as [->|D].
  - cbn [filter]. rewrite Nat.eqb_refl. cbn [negb].
    assert (Q : filter (fun r => negb (Nat.eqb r a)) lr = lr).
    { clear -Nb. induction lr as [|z lr IH]; [reflexivity|]. cbn. destruct (Nat.eqb_spec z a) as [->|D].
      - destruct Nb. now left.
      - cbn. rewrite IH; [reflexivity|]. intros I. apply Nb. now right. }
    rewrite Q. now destruct (p a).
  - destruct I as [I|I]; [congruence|]. cbn [filter]. apply Nat.eqb_neq in D. rewrite D. cbn [negb filter].
    specialize (IH Nl I). destruct (p b); cbn [List.length]; lia.
Qed.
Definition lw_without (lw : option aid) (a : aid) : option aid :=
  match lw with Some w => if Nat.eqb w a then None else Some w | None => None end.
Lemma locked_drop lr lw hold x c a w p : locked lr lw hold x c -> hold a = Some p -> keeps_of w = None ->
  locked (filter (fun r => negb (Nat.eqb r a)) lr) (lw_without lw a) (upd hold a None) (upd x a w)
    (counts c (if rdr (x a) then pred (c_readers c) else c_readers c) (if wtr (x a) then false else c_writer c)).
Proof.
  intros [N L W X K R Wr] Ha Kw. assert (Rw : rdr w = false) by (unfold rdr; now rewrite Kw).
  assert (La : ~ In a (filter (fun r => negb (Nat.eqb r a)) lr)).
  { rewrite filter_In, Nat.eqb_refl. intros [_ Q]. discriminate Q. }
  constructor.
  - apply NoDup_filter, N.
  - intros b. destruct (Nat.eq_dec b a) as [->|D].
    + rewrite upd_same. split; [intros Q; destruct (La Q)|discriminate].
    + rewrite upd_other by auto. rewrite <- L, filter_In. apply Nat.eqb_neq in D. rewrite D. cbn. tauto.
  - intros b. unfold lw_without. destruct (Nat.eq_dec b a) as [->|D].
    + rewrite upd_same. split; [|discriminate]. destruct lw as [z|]; [|discriminate].
      destruct (Nat.eqb_spec z a); [discriminate|congruence].
    + rewrite upd_other by auto. rewrite <- W. destruct lw as [z|]; [|tauto].
      destruct (Nat.eqb_spec z a) as [->|D2]; [|tauto]. split; [discriminate|congruence].
  - unfold lw_without. destruct lw as [z|]; [|congruence]. intros _. rewrite X by discriminate. reflexivity.
  - intros b q. destruct (Nat.eq_dec b a) as [->|D].
    + rewrite !upd_same. congruence.
    + rewrite !upd_other by auto. apply K.
  - cbn. rewrite count_away by exact La. rewrite R. destruct p.
    + assert (Na : ~ In a lr) by (rewrite L, Ha; discriminate).
      assert (rdr (x a) = false) as ->.
      { unfold rdr. destruct (keeps_of (x a)) as [q|] eqn:Q; [|reflexivity]. apply K in Q. rewrite Ha in Q. injection Q as <-. reflexivity. }
      f_equal. clear -Na. induction lr as [|z lr IH]; [reflexivity|]. cbn [filter].
      assert (z <> a) as D by (intros ->; apply Na; now left). apply Nat.eqb_neq in D. rewrite D. cbn [negb filter].
      rewrite <- IH by (intros I; apply Na; now right). reflexivity.
    + assert (I : In a lr) by (apply L, Ha). rewrite (filter_drop (fun b => rdr (x b)) a lr N I).
      destruct (rdr (x a)); reflexivity.
  - cbn. rewrite Wr. unfold lw_without. destruct lw as [z|].
    + destruct (Nat.eqb_spec z a) as [->|D].
      * destruct (wtr (x a)); reflexivity.
      * rewrite upd_other by auto. destruct (wtr (x a)) eqn:Q; [|reflexivity]. exfalso. unfold wtr in Q.
        destruct (keeps_of (x a)) as [[|]|] eqn:Q2; try discriminate Q. apply K in Q2. apply W in Q2. congruence.
    + destruct (wtr (x a)); reflexivity.
Qed.

(** ** The relation *)
Definition linked (s : lstate) (w : cellst * (aid -> wstat)) : Prop :=
  exists hold,
    (forall a, ltied (l_thr s a) (snd w a) (hold a)) /\
    locked (b_lr (l_box s)) (b_lw (l_box s)) hold (snd w) (fst w) /\
    c_val (fst w) = b_val (l_box s) /\ (opt = false -> b_val (l_box s) <> None).

Lemma tied_upd f x hold a t w h : (forall b, ltied (f b) (x b) (hold b)) -> ltied t w h ->
  forall b, ltied (set_lthr f a t b) (upd x a w b) (upd hold a h b).
Proof. intros T Q b. unfold set_lthr, upd. destruct (Nat.eqb b a); auto. Qed.
Lemma hold_upd {A} (f : aid -> A) a : forall b, upd f a (f a) b = f b.
Proof. intros b. unfold upd. destruct (Nat.eqb_spec b a); subst; auto. Qed.
Lemma locked_ext lr lw h1 h2 x c : (forall b, h1 b = h2 b) -> locked lr lw h1 x c -> locked lr lw h2 x c.
Proof.
  intros E [N L W X K R Wr]. constructor; auto; intros; rewrite <- ?E; auto.
Qed.
(** A move that leaves the lock and the content alone. *)
Lemma link_same s c x a t w : linked s (c, x) ->
  (forall h, ltied (l_thr s a) (x a) h -> ltied t w h) -> keeps_of w = keeps_of (x a) ->
  linked (mk_lstate (l_box s) (set_lthr (l_thr s) a t)) (c, upd x a w).
Proof.
  intros (hold & T & L & V & O) Q E. exists hold. cbn [fst snd l_box l_thr] in *. split; [|split; [|auto]].
  - intros b. pose proof (tied_upd (l_thr s) x hold a t w (hold a) T (Q _ (T a)) b) as Z. now rewrite hold_upd in Z.
  - apply locked_same; auto.
Qed.

Lemma lstd_acq k n : l_kind opt k = true -> exists w ck, lstd opt keeps k n = LOp (LAcq w) ck.
Proof. destruct k; cbn; intros H; try discriminate H; eauto. Qed.
Lemma alike_op o c1 c2 k : alike (LOp o k) c2 -> c1 = LOp o k -> exists k2, c2 = LOp o k2 /\ forall z, alike (k z) (k2 z).
Proof. intros A ->. inversion A; subst; eauto. Qed.

Lemma find_in k m : find_method k ms = Some m -> In m ms /\ m_kind m = k.
Proof.
  intros H. apply find_some in H as [I E]. split; [exact I|]. destruct (m_kind m), k; cbn in E; congruence.
Qed.
Lemma one w t w' : wst w t w' -> wrs w t w'.
Proof. intros H. rewrite <- (app_nil_r t). econstructor; [exact H|constructor]. Qed.


Lemma tells_view o an : tells opt o = Some an -> (opt = false -> o <> None) -> an = match v_shape v, o with Bare, Some n => AnVal n | _, _ => AnOpt o end.
Proof. unfold tells. destruct opt, o; cbn; intros H N; congruence. Qed.
Lemma content_ok o : (opt = false -> o <> None) -> exists an, tells opt o = Some an.
Proof. unfold tells. destruct opt, o; cbn; intros N; eauto. destruct (N eq_refl eq_refl). Qed.
Lemma told_look w keep c an : tells opt (c_val c) = Some an -> excluded w c = false ->
  look bld v w keep c = Returns an (keeping Blocking keep w c).
Proof.
  unfold tells, look. cbn. intros T E. unfold with_access. destruct opt; cbn.
  - injection T as <-. rewrite E. reflexivity.
  - destruct (c_val c); [|discriminate T]. injection T as <-. rewrite E. reflexivity.
Qed.
Lemma told_old c an : tells opt (c_val c) = Some an -> old v c = an.
Proof. unfold tells, old. cbn. destruct opt; [|destruct (c_val c)]; congruence. Qed.

(** Only one activity has moved. *)
Lemma link_ext s c x x' : (forall b, x b = x' b) -> linked s (c, x) -> linked s (c, x').
Proof.
  intros E (hold & T & [N L W X K R Wr] & V & O). exists hold. cbn [fst snd] in *. split; [|split; [constructor; auto|auto]].
  - intros b. rewrite <- E. apply T.
  - intros b p. rewrite <- E. apply K.
  - rewrite R. f_equal. apply filter_ext. intros b. now rewrite E.
  - rewrite Wr. destruct (b_lw (l_box s)); [now rewrite E|reflexivity].
Qed.
Lemma link_stay s c x a t : linked s (c, x) ->
  (forall h, ltied (l_thr s a) (x a) h -> ltied t (x a) h) ->
  linked (mk_lstate (l_box s) (set_lthr (l_thr s) a t)) (c, x).
Proof.
  intros L Q. apply (link_ext _ _ (upd x a (x a))); [apply hold_upd|]. apply link_same; auto.
Qed.
Lemma hkind_of k n w o e : stage k n = Some (w, o, e) -> lstd opt keeps k n = LOp (LAcq w) (fun _ => LOp o (fun z => l_end (e z))).
Proof.
  destruct k; cbn; intros H; try discriminate H; try (injection H as <- <- <-; reflexivity).
  destruct keeps; [discriminate H|]. injection H as <- <- <-. reflexivity.
Qed.
Definition gives (k : hkind) : bool :=
  match k with KAccessor => keeps | KReader | KAccessorMut | KWriter => true | _ => false end.
Definition writes (k : hkind) : bool := match k with KAccessorMut | KWriter => true | _ => false end.
Lemma kind_split k n : l_kind opt k = true ->
  (gives k = true /\ lstd opt keeps k n = LOp (LAcq (writes k)) (l_kept opt (writes k))
     /\ (forall c, spec_call bld dflt v k n c = look bld v (writes k) true c)
     /\ hands_guard v k = Some (mk_guard (writes k) false)) \/
  exists w o e, stage k n = Some (w, o, e).
Proof.
  destruct k; cbn; intros H; try discriminate H; try (right; eauto; fail).
  - destruct keeps; [left|right; eauto]. repeat split; auto.
  - left. repeat split; auto.
  - left. repeat split; auto.
  - left. repeat split; auto; intros; destruct opt; reflexivity.
Qed.
Lemma not_excluded lr lw hold x c : locked lr lw hold x c -> lw = None -> excluded false c = false.
Proof. intros K ->. cbn. apply (k_writer _ _ _ _ _ K). Qed.
Lemma nobody hold x c : locked [] None hold x c -> excluded true c = false.
Proof. intros K. cbn. rewrite (k_writer _ _ _ _ _ K), (k_readers _ _ _ _ _ K). reflexivity. Qed.
Lemma nobody_else hold x c a : locked [] (Some a) hold x c -> keeps_of (x a) = None -> excluded true c = false.
Proof.
  intros K E. cbn. rewrite (k_writer _ _ _ _ _ K), (k_readers _ _ _ _ _ K). unfold wtr. now rewrite E.
Qed.

(** The lock is taken. *)
Lemma acquired s c x a w b k : linked s (c, x) -> l_thr s a = LDoing (LOp (LAcq w) k) -> lstep (l_box s) a (LAcq w) = Some b ->
  exists w', wrs (c, x) [] w' /\ linked (mk_lstate b (set_lthr (l_thr s) a (LDoing (k (b_val (l_box s)))))) w'.
Proof.
  intros (hold & T & K & V & O) Th St. pose proof (T a) as Ta. cbn [snd fst] in *. rewrite Th in Ta.
  inversion Ta as [| |? kk n Kk Al Et Ex Eh|? kk n w0 o e Kk Sg Al Et Ex Eh|? an w0 Al Et Ex Eh| | |? u Rw U Et Ex Eh]; subst.
  - destruct (content_ok _ O) as [an Q].
    assert (G : exists hold' : unit,
      (w = true -> b_lw (l_box s) = None /\ b_lr (l_box s) = [] /\ b = mk_lbox (b_val (l_box s)) [] (Some a)) /\
      (w = false -> b_lw (l_box s) = None /\ b = mk_lbox (b_val (l_box s)) (a :: b_lr (l_box s)) None)).
    { exists tt. cbn in St. destruct w, (b_lw (l_box s)); try discriminate St; [destruct (b_lr (l_box s)); [|discriminate St]|];
        injection St as <-; split; try discriminate; auto. }
    destruct G as [_ [Gw Gr]].
    destruct (kind_split kk n Kk) as [(Gv & Sd & Sp & Hg)|(w1 & o1 & e1 & Sg)].
    + (* a guard is handed out *)
      rewrite Sd in Al. inversion Al as [| |? ? ? Ak]; subst. specialize (Ak (b_val (l_box s))).
      unfold l_kept in Ak. rewrite Q in Ak. inversion Ak as [? ? Ef| |]. 
      assert (Sc : spec_call bld dflt v kk n c = Returns an (keeping Blocking true (writes kk) c)).
      { rewrite Sp. apply told_look; [now rewrite V|]. destruct (writes kk).
        - destruct (Gw eq_refl) as (E1 & E2 & _). rewrite E1, E2 in K. apply (nobody _ _ _ K).
        - destruct (Gr eq_refl) as (E1 & _). apply (not_excluded _ _ _ _ _ K E1). }
      assert (Hd : handed v kk an = Some (mk_guard (writes kk) false)).
      { unfold handed. rewrite Hg. unfold tells in Q. destruct opt; [injection Q as <-; reflexivity|].
        destruct (b_val (l_box s)); [injection Q as <-; reflexivity|discriminate Q]. }
      exists (keeping Blocking true (writes kk) c, wset x a (WDone (ORet an) (Some (mk_guard (writes kk) false)))). split.
      * rewrite <- Hd. apply one. apply (w_answer _ _ _ _ _ _ _ kk n); auto.
      * exists (upd hold a (Some (writes kk))). cbn [fst snd l_thr l_box]. split; [|split].
        -- apply tied_upd; [exact T|]. change (Some (writes kk)) with (option_map gd_write (Some (mk_guard (writes kk) false))).
           constructor. intros h E. injection E as <-. reflexivity.
        -- destruct (writes kk).
           ++ destruct (Gw eq_refl) as (E1 & E2 & ->). rewrite E1, E2 in K. cbn [b_lr b_lw].
              exact (locked_write _ _ _ a (WDone (ORet an) (Some (mk_guard true false))) K (eq_sym Eh) (or_intror eq_refl)).
           ++ destruct (Gr eq_refl) as (E1 & ->). rewrite E1 in K. cbn [b_lr b_lw].
              exact (locked_read _ _ _ _ a (WDone (ORet an) (Some (mk_guard false false))) K (eq_sym Eh) (or_intror eq_refl)).
        -- destruct (writes kk).
           ++ destruct (Gw eq_refl) as (E1 & E2 & ->). cbn. auto.
           ++ destruct (Gr eq_refl) as (E1 & ->). cbn. auto.
    + (* the method goes on *)
      rewrite (hkind_of _ _ _ _ _ Sg) in Al. inversion Al as [| |? ? ? Ak]; subst. specialize (Ak (b_val (l_box s))).
      exists (c, x). split; [constructor|]. apply (link_ext _ _ (upd x a (WAsked kk n))); [rewrite Ex; apply hold_upd|].
      exists (upd hold a (Some w1)). cbn [fst snd l_thr l_box]. split; [|split].
      * apply tied_upd; [exact T|]. econstructor; eauto.
      * destruct w1.
        -- destruct (Gw eq_refl) as (E1 & E2 & ->). rewrite E1, E2 in K. cbn [b_lr b_lw].
           eapply locked_val; [apply (locked_write _ _ _ a (WAsked kk n) K); auto|reflexivity|]. cbn. apply (k_writer _ _ _ _ _ K).
        -- destruct (Gr eq_refl) as (E1 & ->). rewrite E1 in K. cbn [b_lr b_lw].
           eapply locked_val; [apply (locked_read _ _ _ _ a (WAsked kk n) K); auto|reflexivity|reflexivity].
      * destruct w1.
        -- destruct (Gw eq_refl) as (E1 & E2 & ->). cbn. auto.
        -- destruct (Gr eq_refl) as (E1 & ->). cbn. auto.
  - exfalso. inversion Al; subst. destruct kk; cbn in Sg; try discriminate Sg. destruct keeps; discriminate Sg.
  - inversion Al.
  - destruct u; discriminate.
Qed.

Lemma stage_op k n w o e : stage k n = Some (w, o, e) -> l_kind opt k = true ->
  (w = false /\ o = LLook /\ forall c an, e (c_val c) = Some an -> excluded false c = false -> (opt = false -> c_val c <> None) ->
     spec_call bld dflt v k n c = Returns an c /\ handed v k an = None) \/
  (w = true /\ exists y, o = LSwap y /\ (opt = false -> y <> None) /\
     forall c an, e (c_val c) = Some an -> excluded true c = false ->
     spec_call bld dflt v k n c = Returns an (filled c y) /\ handed v k an = None).
Proof.
  assert (Hn : forall an, handed v k an = match an with AnErr _ => None | _ => hands_guard v k end) by reflexivity.
  destruct k; cbn; intros H Kk; try discriminate H; try discriminate Kk.
  - assert (Ke : keeps = true \/ keeps = false) by (destruct keeps; auto). destruct Ke as [Ke|Ke]; rewrite Ke in H; [discriminate H|].
    injection H as <- <- <-. left. split; [reflexivity|]. split; [reflexivity|].
    intros c an E X N. split; [|destruct an; cbn; now rewrite ?Ke]. rewrite (told_look false keeps _ _ E X). unfold keeping. now rewrite Ke.
  - injection H as <- <- <-. right. split; [reflexivity|]. exists None. split; [reflexivity|]. split; [congruence|].
    intros c an E X. split; [|destruct an; reflexivity]. cbn in X. rewrite X. rewrite (told_old _ _ E). rewrite Kk. reflexivity.
  - injection H as <- <- <-. left. split; [reflexivity|]. split; [reflexivity|].
    intros c an E X N. injection E as <-. split; [|reflexivity]. cbn in X. rewrite Kk, X. unfold l_has, is_some. reflexivity.
  - injection H as <- <- <-. right. split; [reflexivity|]. exists (Some n). split; [reflexivity|]. split; [congruence|].
    intros c an E X. split; [|destruct an; reflexivity]. cbn in X. rewrite X. rewrite (told_old _ _ E). reflexivity.
Qed.
Lemma stage_tells k n w o e c : stage k n = Some (w, o, e) -> (opt = false -> c <> None) -> exists an, e c = Some an.
Proof.
  assert (Ke : keeps = true \/ keeps = false) by (destruct keeps; auto).
  destruct k; cbn; intros H N; try discriminate H; [destruct Ke as [Ke|Ke]; rewrite Ke in H; [discriminate H|]| | |];
    injection H as <- <- <-; try (apply content_ok, N); eauto.
Qed.
Lemma sees_tells o : ysee opt (YGuard false o) = tells opt o.
Proof. unfold ysee, content, tells. destruct opt; [reflexivity|]. now destruct o. Qed.
Lemma shown_tells o an : tells opt o = Some an -> shown v false o = an.
Proof. unfold tells, shown. cbn. destruct opt, o; congruence. Qed.
Lemma same_box b : mk_lbox (b_val b) (b_lr b) (b_lw b) = b.
Proof. destruct b; reflexivity. Qed.

Lemma looked s c x a k : linked s (c, x) -> l_thr s a = LDoing (LOp LLook k) ->
  exists w', wrs (c, x) [] w' /\ linked (mk_lstate (l_box s) (set_lthr (l_thr s) a (LDoing (k (b_val (l_box s)))))) w'.
Proof.
  intros Lk Th. pose proof Lk as (hold & T & K & V & O). pose proof (T a) as Ta. cbn [snd fst] in *. rewrite Th in Ta.
  inversion Ta as [| |? kk n Kk Al Et Ex Eh|? kk n w0 o e Kk Sg Al Et Ex Eh|? an w0 Al Et Ex Eh| | |? u Rw U Et Ex Eh]; subst.
  - exfalso. destruct (lstd_acq kk n Kk) as (w & ck & E). rewrite E in Al. inversion Al.
  - inversion Al as [| |? ? ? Ak]; subst. specialize (Ak (b_val (l_box s))).
    destruct (stage_tells _ _ _ _ _ (b_val (l_box s)) Sg O) as [an E]. rewrite E in Ak. cbn in Ak.
    destruct (stage_op _ _ _ _ _ Sg Kk) as [(-> & _ & Sp)|(_ & y & Q & _)]; [|discriminate Q].
    assert (Lw : b_lw (l_box s) = None).
    { destruct (b_lw (l_box s)) eqn:Q; [|reflexivity]. exfalso. symmetry in Eh. apply (k_lr _ _ _ _ _ K) in Eh.
      rewrite (k_excl _ _ _ _ _ K) in Eh by discriminate. destruct Eh. }
    rewrite <- V in E. destruct (Sp c an E (not_excluded _ _ _ _ _ K Lw) ltac:(now rewrite V)) as [S1 S2].
    exists (c, wset x a (WDone (ORet an) None)). split.
    + rewrite <- S2. apply one. apply (w_answer _ _ _ _ _ _ _ kk n); auto.
    + apply link_same; [exact Lk| |now rewrite <- Ex]. intros h _T. rewrite Th, <- Ex in _T.
      assert (Eq : h = Some false).
      { inversion _T as [| |? ? ? Kk2 Al2| ? ? ? ? ? ? Kk2 Sg2 | | | | ]; subst.
        - destruct (lstd_acq kk n Kk2) as (w & ck & E2). rewrite E2 in Al2. inversion Al2.
        - rewrite Sg in Sg2. injection Sg2 as <- _ _. reflexivity. }
      rewrite Eq. econstructor. exact Ak.
  - inversion Al.
  - destruct u; cbn [luse] in Et; try discriminate Et. injection Et as Et. 
    destruct (content_ok _ O) as [an E].
    exists (c, wset x a (WDone (ORet (shown v (gd_raw g) (c_val c))) (Some g))). split.
    + apply one. constructor. auto.
    + assert (Kz : k (b_val (l_box s)) = LFin (ORet an) (Some g)).
      { rewrite <- Et. pose proof (sees_tells (b_val (l_box s))) as Z. cbn [ysee] in Z. rewrite Z, E. reflexivity. }
      rewrite Kz, Rw, V, (shown_tells _ _ E).
      apply link_same; [exact Lk| |rewrite <- Ex; reflexivity]. intros h _T. rewrite Th, <- Ex in _T.
      inversion _T; subst. change (Some (gd_write g)) with (option_map gd_write (Some g)). constructor. congruence.
Qed.
Lemma swapped s c x a y b k : linked s (c, x) -> l_thr s a = LDoing (LOp (LSwap y) k) -> lstep (l_box s) a (LSwap y) = Some b ->
  exists w', wrs (c, x) [] w' /\ linked (mk_lstate b (set_lthr (l_thr s) a (LDoing (k (b_val (l_box s)))))) w'.
Proof.
  intros Lk Th St. pose proof Lk as (hold & T & K & V & O). pose proof (T a) as Ta. cbn [snd fst] in *. rewrite Th in Ta.
  cbn in St. destruct (b_lw (l_box s)) as [z|] eqn:Lw; [|discriminate St]. destruct (Nat.eqb_spec z a) as [->|]; [|discriminate St].
  injection St as <-. assert (Lr : b_lr (l_box s) = []) by (apply (k_excl _ _ _ _ _ K); discriminate).
  inversion Ta as [| |? kk n Kk Al Et Ex Eh|? kk n w0 o e Kk Sg Al Et Ex Eh|? an w0 Al Et Ex Eh| | |? u Rw U Et Ex Eh]; subst.
  - exfalso. destruct (lstd_acq kk n Kk) as (w & ck & E). rewrite E in Al. inversion Al.
  - inversion Al as [| |? ? ? Ak]; subst. specialize (Ak (b_val (l_box s))).
    destruct (stage_tells _ _ _ _ _ (b_val (l_box s)) Sg O) as [an E]. rewrite E in Ak. cbn in Ak.
    destruct (stage_op _ _ _ _ _ Sg Kk) as [(_ & Q & _)|(-> & y' & Q & Ny & Sp)]; [discriminate Q|]. injection Q as <-.
    rewrite <- V in E. assert (Kn : keeps_of (x a) = None) by now rewrite <- Ex.
    pose proof K as K2. rewrite Lr in K2.
    destruct (Sp c an E (nobody_else _ _ _ _ K2 Kn)) as [S1 S2].
    exists (filled c y, wset x a (WDone (ORet an) None)). split.
    + rewrite <- S2. apply one. apply (w_answer _ _ _ _ _ _ _ kk n); auto.
    + exists hold. cbn [fst snd l_thr l_box b_lr b_lw b_val]. split; [|split; [|split]].
      * intros b. pose proof (tied_upd (l_thr s) x hold a (LDoing (k (b_val (l_box s)))) (WDone (ORet an) None) (hold a) T) as Z.
        rewrite <- Eh in Z at 1. specialize (Z (lt_leaving _ an true Ak) b). now rewrite hold_upd in Z.
      * eapply locked_val; [apply locked_same; [exact K|]|reflexivity|reflexivity]. now rewrite Kn.
      * reflexivity.
      * exact Ny.
  - inversion Al.
  - destruct u; cbn [luse] in Et; try discriminate Et. injection Et as -> Et.
    exists (filled c y, wset x a (WDone ODone (Some g))). split.
    + apply one. constructor. auto.
    + rewrite <- Et. exists hold. cbn [fst snd l_thr l_box b_lr b_lw b_val]. split; [|split; [|split]].
      * intros b. pose proof (tied_upd (l_thr s) x hold a (LDoing (LFin ODone (Some g))) (WDone ODone (Some g)) (hold a) T) as Z.
        rewrite <- Eh in Z at 1. assert (Q : ltied (LDoing (LFin ODone (Some g))) (WDone ODone (Some g)) (Some (gd_write g))).
        { change (Some (gd_write g)) with (option_map gd_write (Some g)). constructor. congruence. }
        specialize (Z Q b). now rewrite hold_upd in Z.
      * eapply locked_val; [apply locked_same; [exact K|]|reflexivity|reflexivity]. now rewrite <- Ex.
      * reflexivity.
      * cbn in U. intros Op. rewrite Op in U. destruct y; [discriminate|]. rewrite andb_false_r in U. discriminate U.
Qed.
Lemma dropped s c x a b k : linked s (c, x) -> l_thr s a = LDoing (LOp LDrop k) -> lstep (l_box s) a LDrop = Some b ->
  exists w', wrs (c, x) [] w' /\ linked (mk_lstate b (set_lthr (l_thr s) a (LDoing (k (b_val (l_box s)))))) w'.
Proof.
  intros Lk Th St. pose proof Lk as (hold & T & K & V & O). pose proof (T a) as Ta. cbn [snd fst] in *. rewrite Th in Ta.
  cbn in St. injection St as <-.
  inversion Ta as [| |? kk n Kk Al Et Ex Eh|? kk n w0 o e Kk Sg Al Et Ex Eh|? an w0 Al Et Ex Eh| | |? u Rw U Et Ex Eh]; subst.
  - exfalso. destruct (lstd_acq kk n Kk) as (w & ck & E). rewrite E in Al. inversion Al.
  - exfalso. inversion Al; subst. destruct (stage_op _ _ _ _ _ Sg Kk) as [(_ & Q & _)|(_ & y' & Q & _)]; discriminate Q.
  - inversion Al as [| |? ? ? Ak]; subst. specialize (Ak (b_val (l_box s))). inversion Ak as [? ? Ef| |].
    exists (c, x). split; [constructor|]. apply (link_ext _ _ (upd x a (WDone (ORet an) None))); [rewrite Ex; apply hold_upd|].
    exists (upd hold a None). cbn [fst snd l_thr l_box b_lr b_lw b_val]. split; [|split; [|auto]].
    + apply tied_upd; [exact T|]. subst. change (@None bool) with (option_map gd_write None). constructor. congruence.
    + eapply locked_val; [exact (locked_drop _ _ _ _ _ a (WDone (ORet an) None) w0 K (eq_sym Eh) eq_refl)| |];
        cbn; rewrite <- Ex; reflexivity.
  - destruct u; cbn [luse] in Et; try discriminate Et. injection Et as Et.
    exists (without g c, wset x a (WDone ODone None)). split; [apply one; constructor; auto|].
    rewrite <- Et. exists (upd hold a None). cbn [fst snd l_thr l_box b_lr b_lw b_val]. split; [|split; [|split]].
    + apply tied_upd; [exact T|]. change (@None bool) with (option_map gd_write None). constructor. congruence.
    + eapply locked_val; [exact (locked_drop _ _ _ _ _ a (WDone ODone None) _ K (eq_sym Eh) eq_refl)| |];
        cbn; rewrite <- Ex; unfold without, rdr, wtr; cbn; destruct (gd_write g); reflexivity.
    + rewrite <- V. unfold without. destruct (gd_write g); reflexivity.
    + exact O.
Qed.

Lemma move_linked s y s' h w : linked s w -> lmove asy opt ms s y = Some (s', h) ->
  exists w', wrs w h w' /\ linked s' w'.
Proof.
  destruct w as [c x]. intros Lk M. pose proof Lk as (hold & T & _). cbn [snd] in T.
  destruct y as [a k n|a u|a|a]; cbn [lmove] in M; specialize (T a).
  - destruct (l_thr s a) eqn:Th; try discriminate M. destruct (find_method k ms) as [m|] eqn:F; [|discriminate M].
    injection M as <- <-. apply find_in in F as [I <-]. destruct (STD m n I) as [Kk Al].
    exists (c, wset x a (WAsked (m_kind m) n)). assert (X : x a = WFree) by (inversion T; auto).
    split; [apply one; constructor; exact X|]. apply link_same; [exact Lk| |now rewrite X].
    intros h T2. rewrite Th in T2. inversion T2; subst. destruct (m_async m) eqn:As; constructor; eauto.
  - destruct (l_thr s a) eqn:Th; try discriminate M. destruct (luse_ok opt g u) eqn:U; [|discriminate M].
    injection M as <- <-. exists (c, wset x a (WUsing g u)).
    assert (X : x a = WKeeps g /\ gd_raw g = false) by (inversion T; auto). destruct X as [X Rw]. split.
    + apply one. constructor; [exact X|]. unfold usable, luse_ok, assignable, is_some in *. cbn. destruct u as [|[z|]|]; auto.
      * rewrite U. destruct opt; cbn; [reflexivity|]. now rewrite orb_true_r.
      * apply andb_true_iff in U as [U1 U2]. rewrite U1. rewrite U2. reflexivity.
    + apply link_same; [exact Lk| |now rewrite X].
      intros h T2. rewrite Th in T2. inversion T2; subst. constructor; auto.
  - destruct (l_thr s a) as [|cc|cc|g] eqn:Th; try discriminate M.
    + injection M as <- <-. exists (c, x). split; [constructor|]. apply link_stay; [exact Lk|].
      intros h T2. rewrite Th in T2. inversion T2; subst. constructor; auto.
    + destruct cc as [o g| |o k]; try discriminate M.
      * injection M as <- <-. exists (c, wset x a (after g)).
        inversion T as [| |? ? ? Kk Al|? ? ? ? ? ? ? ? Al|? ? ? Al|? ? G| |? u ? ? Q]; subst;
          [exfalso; destruct (lstd_acq _ n Kk) as (w & ck & E); rewrite E in Al; inversion Al
          |inversion Al|inversion Al| |destruct u; discriminate].
        split; [apply one; constructor; auto|]. apply link_same; [exact Lk| |rewrite <- H1; destruct g; reflexivity].
        intros h T2. rewrite Th, <- H1 in T2.
        inversion T2 as [| | | |? ? ? Al|? ? G2| |]; subst; [inversion Al|]. destruct g; constructor; auto.
      * destruct (lstep (l_box s) a o) as [b|] eqn:St; [|discriminate M]. injection M as <- <-. destruct o as [w| |y|].
        -- eapply acquired; eauto.
        -- injection St as <-. eapply looked; eauto.
        -- eapply swapped; eauto.
        -- eapply dropped; eauto.
  - destruct (l_thr s a) as [|cc|cc|g] eqn:Th; try discriminate M.
    + injection M as <- <-. inversion T as [|? k n As Kk Al E1 E2 E3| | | | | |]; subst.
      exists (c, wset x a WFree). split; [apply one; econstructor; eauto|]. apply link_same; [exact Lk| |now rewrite <- E2].
      intros h T2. rewrite Th, <- E2 in T2. inversion T2; subst. constructor.
    + destruct cc as [o g| |o k]; try discriminate M. destruct o; try discriminate M.
      assert (As : asy = true) by (revert M; destruct asy; congruence). rewrite As in M. injection M as <- <-.
      assert (A : exists kk n, x a = WAsked kk n /\ forall h, ltied (LDoing (LOp (LAcq w) k)) (x a) h -> h = None).
      { inversion T as [| |? kk n Kk Al Et Ex Eh|? kk n w0 o e Kk Sg Al Et Ex Eh|? an w0 Al Et Ex Eh| | |? u Rw U Et Ex Eh]; subst.
        - exists kk, n. split; [auto|]. intros h T2. inversion T2 as [| | |? k3 n3 w3 o3 e3 Kk3 Sg3 Al3| ? ? ? Al3 Et3 Ex3| | | ]; subst; auto; try congruence.
          exfalso. inversion Al3; subst. destruct (stage_op _ _ _ _ _ Sg3 Kk3) as [(_ & Q & _)|(_ & y' & Q & _)]; discriminate Q.
        - exfalso. inversion Al; subst. destruct (stage_op _ _ _ _ _ Sg Kk) as [(_ & Q & _)|(_ & y' & Q & _)]; discriminate Q.
        - inversion Al.
        - destruct u; discriminate. }
      destruct A as (kk & n & X & Hn). exists (c, wset x a WFree). split; [apply one; econstructor; eauto|].
      apply link_same; [exact Lk| |now rewrite X].
      intros h T2. rewrite Th in T2. rewrite (Hn h T2). constructor.
Qed.
Lemma wruns_trans w1 t1 w2 t2 w3 : wrs w1 t1 w2 -> wrs w2 t2 w3 -> wrs w1 (t1 ++ t2) w3.
Proof. induction 1; intros R; [exact R|]. rewrite <- app_assoc. econstructor; eauto. Qed.
Lemma moves_linked l : forall s w s' h, linked s w -> lmoves asy opt ms s l = Some (s', h) ->
  exists w', wrs w h w' /\ linked s' w'.
Proof.
  induction l as [|y l IH]; intros s w s' h Lk M; cbn in M.
  - injection M as <- <-. exists w. split; [constructor|exact Lk].
  - destruct (lmove asy opt ms s y) as [[s1 h1]|] eqn:E; [|discriminate M].
    destruct (lmoves asy opt ms s1 l) as [[s2 h2]|] eqn:E2; [|discriminate M]. injection M as <- <-.
    destruct (move_linked _ _ _ _ _ Lk E) as (w1 & R1 & L1). destruct (IH _ _ _ _ L1 E2) as (w2 & R2 & L2).
    exists w2. split; [eapply wruns_trans; eauto|exact L2].
Qed.
Lemma linked_start o : (opt = false -> o <> None) -> linked (mk_lstate (mk_lbox o [] None) (fun _ => LIdle)) (wstart o).
Proof.
  intros O. exists (fun _ => None). cbn. split; [constructor|]. split; [|auto].
  constructor; cbn; auto; try congruence; try constructor; try tauto; discriminate.
Qed.
Lemma linked_sane s w a : linked s w -> l_thr s a <> LDoing LWrong.
Proof.
  intros (hold & T & _) E. specialize (T a). rewrite E in T.
  inversion T as [| |? ? ? Kk Al|? ? ? ? ? ? ? ? Al|? ? ? Al| | |? u ? ? Q]; subst; try inversion Al.
  - destruct (lstd_acq _ n Kk) as (w0 & ck & E2). rewrite E2 in Al. inversion Al.
  - destruct u; discriminate.
Qed.

(** ** Something can move *)
Lemma can_go s w a : linked s w -> l_thr s a <> LIdle ->
  (exists b, lmove asy opt ms s (LGo b) <> None) \/ exists b g, l_thr s b = LKeeping g.
Proof.
  intros Lk N. destruct w as [c x]. pose proof Lk as (hold & T & K & V & O). cbn [fst snd] in *.
  assert (Held : forall b p, hold b = Some p -> lmove asy opt ms s (LGo b) <> None \/ exists g, l_thr s b = LKeeping g).
  { intros b p Hb. pose proof (T b) as Tb. rewrite Hb in Tb. cbn [lmove].
    inversion Tb as [| |?|? kk n w0 o e Kk Sg Al Et Ex Eh|? an w0 Al Et Ex Eh|? g G Et Ex Eh|? Rw Et Ex Eh|? u Rw U Et Ex Eh]; subst.
    - inversion Al as [| |? ? ? Ak Eo]; subst. left. cbn [lmove].
      destruct (stage_op _ _ _ _ _ Sg Kk) as [(-> & -> & _)|(-> & y & -> & _)]; [discriminate|].
      cbn [lstep]. rewrite (proj2 (k_lw _ _ _ _ _ K b) Hb), Nat.eqb_refl. discriminate.
    - inversion Al as [| |? ? ? Ak Eo]; subst. left. discriminate.
    - left. discriminate.
    - right. eauto.
    - left. cbn [lmove]. destruct u as [|y|]; cbn [luse lstep]; try discriminate.
      assert (Wg : gd_write g = true) by (cbn in U; destruct y; [auto|apply andb_true_iff in U; tauto]).
      rewrite Wg in Hb. rewrite (proj2 (k_lw _ _ _ _ _ K b) Hb), Nat.eqb_refl. discriminate. }
  assert (Free : (forall b, hold b = None) -> lmove asy opt ms s (LGo a) <> None).
  { intros F. pose proof (T a) as Ta. rewrite F in Ta. cbn [lmove].
    assert (Lw : b_lw (l_box s) = None).
    { destruct (b_lw (l_box s)) as [z|] eqn:Q; [|reflexivity]. pose proof (proj1 (k_lw _ _ _ _ _ K z) eq_refl) as Q2. rewrite F in Q2. discriminate. }
    assert (Lr : b_lr (l_box s) = []).
    { destruct (b_lr (l_box s)) as [|z r] eqn:Q; [reflexivity|].
      pose proof (proj1 (k_lr _ _ _ _ _ K z) (or_introl eq_refl)) as Q2. rewrite F in Q2. discriminate. }
    inversion Ta as [|? kk n As Kk Al Et Ex Eh|? kk n Kk Al Et Ex Eh| | |? g G Et Ex Eh| |]; subst.
    - congruence.
    - discriminate.
    - destruct (lstd_acq _ n Kk) as (w0 & ck & E2). rewrite E2 in Al. inversion Al; subst.
      cbn [lstep]. rewrite Lw, Lr. destruct w0; discriminate.
    - discriminate. }
  destruct (b_lw (l_box s)) as [z|] eqn:Lw.
  - destruct (Held _ _ (proj1 (k_lw _ _ _ _ _ K z) eq_refl)) as [G|[g G]]; eauto.
  - destruct (b_lr (l_box s)) as [|z r] eqn:Lr.
    + left. exists a. apply Free. intros b. destruct (hold b) as [[|]|] eqn:Q; [| |reflexivity].
      * apply (k_lw _ _ _ _ _ K) in Q. discriminate.
      * apply (k_lr _ _ _ _ _ K) in Q. destruct Q.
    + assert (I : hold z = Some false) by (apply (k_lr _ _ _ _ _ K); now left). destruct (Held _ _ I) as [G|[g G]]; eauto.
Qed.
Lemma moves_snoc l : forall s s' h y, lmoves asy opt ms s l = Some (s', h) -> lmove asy opt ms s' y <> None ->
  lmoves asy opt ms s (l ++ [y]) <> None.
Proof.
  induction l as [|z l IH]; intros s s' h y M N; cbn in *.
  - injection M as <- <-. destruct (lmove asy opt ms s y) as [[? ?]|]; [discriminate|congruence].
  - destruct (lmove asy opt ms s z) as [[s1 h1]|]; [|discriminate M].
    destruct (lmoves asy opt ms s1 l) as [[s2 h2]|] eqn:E; [|discriminate M]. injection M as <- <-.
    specialize (IH _ _ _ _ E N). destruct (lmoves asy opt ms s1 (l ++ [y])) as [[? ?]|]; [discriminate|congruence].
Qed.
End Sim.
