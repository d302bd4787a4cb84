(** The steps that are left to an activity of one field. *)
From Coq Require Import List Bool String Arith Lia.
From Verif Require Import ProxyTypes ArgsModel CtxModel RustAst RustSem CommonGen StructGen CodegenSpec FieldSpec FieldRun FieldProofs BehaveSpec
  ThreadSpec ThreadModel ThreadScripts ThreadProofs LockedModel LockedScripts LockedProofs ObjectSpec ObjectModel ObjectParts ObjectProofs ObjectRecord EndSpec.
From Verif Require SyncProxyModel AsyncProxyModel.
Import ListNotations.
Open Scope list_scope.

Definition calm (x : mact) : bool :=
  match x with MInvoke _ _ _ | MUse _ (Look | Put _) => false | _ => true end.

(** ** What a method has before it *)
Section Lazy.
Variable cost : op nat -> nat.
Inductive within : nat -> comp -> Prop :=
| wi_fin n o g : (match g with Some _ => 6 | None => 1 end) <= n -> within n (Fin o g)
| wi_wrong n : within n Wrong
| wi_op n m o k : cost o + m <= n -> (forall r, within m (k r)) -> within n (Op o k).

Variable St : Type.
Variable bstep : St -> bact -> option (St * list (event nat nat)).
Variable prank : St -> aid -> nat.
Hypothesis Call : forall s a o s' t, bstep s (BCall a o) = Some (s', t) -> S (prank s' a) <= cost o.
Definition bactor (y : bact) : aid := match y with BCall a _ | BStep a | BBuilt a _ | BCancel a => a end.
Hypothesis Others : forall s y s' t b, bstep s y = Some (s', t) -> bactor y <> b -> prank s' b = prank s b.
Hypothesis Less : forall s y s' t, bstep s y = Some (s', t) ->
  match y with BCall _ _ => True | _ => prank s' (bactor y) < prank s (bactor y) end.
Variable ms : list mdecl.
Variables asy alive : bool.
Hypothesis Short : forall m n, In m ms -> within (if m_async m then 19 else 20) (script asy alive m n).
Hypothesis Uses : forall g u, within (match u with LetGo => 4 | _ => 20 end) (use_script g u).

Definition lasts_thr (q : nat) (th : thr) (n : nat) : Prop :=
  match th with
  | Idle => True
  | Fresh c => exists m, within m c /\ S m <= n
  | Doing c => within n c
  | Waiting k => exists m, (forall r, within m (k r)) /\ q + m <= n
  | Keeping _ => 5 <= n
  end.
Lemma set_same f a x : set_thr f a x a = x.
Proof. unfold set_thr. rewrite Nat.eqb_refl. reflexivity. Qed.
Lemma set_other f a b x : a <> b -> set_thr f a x b = f b.
Proof. intros N. unfold set_thr. destruct (Nat.eqb_spec b a); congruence. Qed.
Lemma lazy_lasts s x s' h t a n : mstep St bstep ms asy alive s x = Some (s', h, t) ->
  lasts_thr (prank (m_box s) a) (m_thr s a) n ->
  if Nat.eqb (actor x) a
  then if calm x then exists m, S m <= n /\ lasts_thr (prank (m_box s') a) (m_thr s' a) m
       else lasts_thr (prank (m_box s') a) (m_thr s' a) 20
  else lasts_thr (prank (m_box s') a) (m_thr s' a) n.
Proof.
  intros H L. destruct (Nat.eqb_spec (actor x) a) as [E|N].
  - subst a. destruct x as [a k v|a u|a|a|a b|a]; cbn [mstep actor calm] in *.
    + destruct (m_thr s a); try discriminate H. destruct (find_method k ms) as [m|] eqn:F; [|discriminate H].
      injection H as <- <- <-. cbn [m_thr m_box]. rewrite set_same. apply find_kind in F as [I _].
      pose proof (Short m v I) as W. destruct (m_async m); [|exact W]. cbn. exists 19. auto.
    + destruct (m_thr s a) as [| | | |g]; try discriminate H. destruct (use_ok g u); [|discriminate H].
      injection H as <- <- <-. cbn [m_thr m_box]. rewrite set_same. cbn [lasts_thr] in *.
      pose proof (Uses g u) as W. destruct u; try exact W. exists 4. split; [lia|exact W].
    + destruct (m_thr s a) as [|c|[o g| |o k]|k|g]; try discriminate H.
      * injection H as <- <- <-. cbn [m_thr m_box]. rewrite set_same. cbn in *. destruct L as (m & W & Le). exists m. auto.
      * injection H as <- <- <-. cbn [m_thr m_box]. rewrite set_same. cbn in L. inversion L as [? ? ? Le| |]; subst.
        destruct g; [exists 5|exists 0]; cbn; split; try lia; exact I.
      * destruct (bstep (m_box s) (BCall a o)) as [[b t0]|] eqn:B; [|discriminate H]. injection H as <- <- <-.
        cbn [m_thr m_box]. rewrite set_same. cbn in L. inversion L as [| |? m ? ? Le W]; subst.
        pose proof (Call _ _ _ _ _ B) as Q. exists (prank b a + m). split; [lia|]. cbn. exists m. split; [exact W|lia].
    + destruct (m_thr s a) as [| | |k|]; try discriminate H.
      destruct (bstep (m_box s) (BStep a)) as [[b0 t0]|] eqn:B; [|discriminate H]. injection H as <- <- <-.
      cbn [m_thr m_box]. rewrite set_same. pose proof (Less _ _ _ _ B) as Q. cbn in Q. cbn in L. destruct L as (m & W & Le).
      exists (prank b0 a + m). split; [lia|]. unfold resumed.
      assert (Wu : forall r, lasts_thr (prank b0 a) (Doing (k r)) (prank b0 a + m)).
      { intros r. cbn. specialize (W r). clear - W. inversion W; subst; econstructor; try eassumption; lia. }
      destruct (answer_for a t0) as [r|]; [destruct r; try apply Wu; exact I|]. cbn. exists m. split; [exact W|lia].
    + destruct (m_thr s a) as [| | |k|]; try discriminate H.
      destruct (bstep (m_box s) (BBuilt a b)) as [[b0 t0]|] eqn:B; [|discriminate H]. injection H as <- <- <-.
      cbn [m_thr m_box]. rewrite set_same. pose proof (Less _ _ _ _ B) as Q. cbn in Q. cbn in L. destruct L as (m & W & Le).
      exists (prank b0 a + m). split; [lia|]. unfold resumed.
      assert (Wu : forall r, lasts_thr (prank b0 a) (Doing (k r)) (prank b0 a + m)).
      { intros r. cbn. specialize (W r). clear - W. inversion W; subst; econstructor; try eassumption; lia. }
      destruct (answer_for a t0) as [r|]; [destruct r; try apply Wu; exact I|]. cbn. exists m. split; [exact W|lia].
    + destruct (m_thr s a) as [|c| |k|]; try discriminate H.
      { injection H as <- <- <-. cbn [m_thr m_box]. rewrite set_same. cbn in L. destruct L as (m & _ & Le). exists m. cbn. auto. }
      destruct (bstep (m_box s) (BCancel a)) as [[b0 t0]|] eqn:B; [|discriminate H]. injection H as <- <- <-.
      cbn [m_thr m_box]. rewrite set_same. pose proof (Less _ _ _ _ B) as Q. cbn in Q. cbn in L. destruct L as (m & W & Le).
      exists (prank b0 a + m). split; [lia|]. unfold resumed.
      assert (Wu : forall r, lasts_thr (prank b0 a) (Doing (k r)) (prank b0 a + m)).
      { intros r. cbn. specialize (W r). clear - W. inversion W; subst; econstructor; try eassumption; lia. }
      destruct (answer_for a t0) as [r|]; [destruct r; try apply Wu; exact I|]. cbn. exists m. split; [exact W|lia].
  - assert (K : m_thr s' a = m_thr s a /\ prank (m_box s') a = prank (m_box s) a).
    { destruct x as [b k v|b u|b|b|b o|b]; cbn [mstep actor] in *;
        repeat match type of H with
        | match ?z with _ => _ end = _ => let E := fresh "E" in destruct z eqn:E; try discriminate H
        | (if ?z then _ else _) = _ => destruct z; try discriminate H
        end; injection H as <- <- <-; cbn [m_thr m_box]; rewrite set_other by exact N; split; try reflexivity;
        match goal with B : bstep _ _ = Some _ |- _ => exact (Others _ _ _ _ a B N) end. }
    destruct K as [-> ->]. exact L.
Qed.
End Lazy.

(** ** The containers *)
Definition sync_end (m : SyncProxyModel.rmode) : nat :=
  match m with
  | SyncProxyModel.MRead | SyncProxyModel.MTryRead => 3 | SyncProxyModel.MReadMut | SyncProxyModel.MTryReadMut => 4
  | SyncProxyModel.MLazy => 2
  end.
Definition async_end (m : AsyncProxyModel.rmode) : nat := match m with AsyncProxyModel.MLazy => 2 | _ => 3 end.
Definition sync_rank (p : SyncProxyModel.pc nat nat) : nat :=
  match p with
  | SyncProxyModel.Hold _ => 0
  | SyncProxyModel.Ret _ _ => 1
  | SyncProxyModel.RI_Acq m => 9 + sync_end m
  | SyncProxyModel.RI_Check m => 8 + sync_end m
  | SyncProxyModel.RI_Upg m => 7 + sync_end m
  | SyncProxyModel.RI_Recheck m => 6 + sync_end m
  | SyncProxyModel.RI_GetBld m => 5 + sync_end m
  | SyncProxyModel.RI_Build m => 4 + sync_end m
  | SyncProxyModel.RI_SetVal m _ => 3 + sync_end m
  | SyncProxyModel.RI_SetFlag m => 2 + sync_end m
  | SyncProxyModel.RI_Down m => 1 + sync_end m
  | SyncProxyModel.RI_Done m => sync_end m
  | SyncProxyModel.M_Upg _ => 3
  | SyncProxyModel.C_Acq => 5 | SyncProxyModel.C_Flag => 4 | SyncProxyModel.C_Take => 3
  | SyncProxyModel.K_Acq => 5 | SyncProxyModel.K_Val => 4 | SyncProxyModel.K_Flag _ => 3
  | SyncProxyModel.D_Acq => 4 | SyncProxyModel.D_Val => 3
  | SyncProxyModel.S_Flag _ => 3 | SyncProxyModel.X_Flag => 3
  | _ => 2
  end.
Definition async_rank (p : AsyncProxyModel.pc nat nat) : nat :=
  match p with
  | AsyncProxyModel.Hold _ => 0
  | AsyncProxyModel.Ret _ _ => 1
  | AsyncProxyModel.RI_Acq m => 6 + async_end m
  | AsyncProxyModel.RI_Check m => 5 + async_end m
  | AsyncProxyModel.RI_GetBld m => 4 + async_end m
  | AsyncProxyModel.RI_Build m => 3 + async_end m
  | AsyncProxyModel.RI_SetVal m _ => 2 + async_end m
  | AsyncProxyModel.RI_SetFlag m => 1 + async_end m
  | AsyncProxyModel.RI_Done m => async_end m
  | AsyncProxyModel.C_Acq => 5 | AsyncProxyModel.C_Flag => 4 | AsyncProxyModel.C_Take => 3
  | AsyncProxyModel.K_Acq => 5 | AsyncProxyModel.K_Val => 4 | AsyncProxyModel.K_Flag _ => 3
  | AsyncProxyModel.D_Acq => 4 | AsyncProxyModel.D_Val => 3
  | AsyncProxyModel.S_Flag _ => 3 | AsyncProxyModel.X_Flag => 3
  | _ => 2
  end.
Definition op_cost (rd md ld : nat) (o : op nat) : nat :=
  match o with
  | ORead | OTryRead => rd | OReadMut | OTryReadMut => md | OLazyInit => ld
  | OClear | OClone => 6 | ODebug => 5
  | GStore _ | GClear => 4
  | _ => 3
  end.
Definition sync_cost := op_cost 13 14 12.
Definition async_cost := op_cost 10 10 9.
Lemma sync_call s a o s' t : sync_box s (BCall a o) = Some (s', t) -> S (sync_rank (SyncProxyModel.pcs s' a)) <= sync_cost o.
Proof.
  cbn. destruct (SyncProxyModel.pcs s a); try discriminate. destruct (SyncProxyModel.enter h o) as [p|] eqn:E; [|discriminate].
  intros H. injection H as <- <-. cbn. unfold SyncProxyModel.upd. rewrite Nat.eqb_refl.
  destruct h, o; try discriminate E; injection E as <-; cbn; lia.
Qed.
Lemma async_call s a o s' t : async_box s (BCall a o) = Some (s', t) -> S (async_rank (AsyncProxyModel.pcs s' a)) <= async_cost o.
Proof.
  unfold async_box. cbn. destruct (AsyncProxyModel.pcs s a); try discriminate. destruct (AsyncProxyModel.enter h o) as [p|] eqn:E; [|discriminate].
  intros H. injection H as <- <-. cbn. unfold AsyncProxyModel.upd. rewrite Nat.eqb_refl.
  destruct h, o; try discriminate E; injection E as <-; cbn; lia.
Qed.
Ltac cases H :=
  repeat match type of H with
  | match ?z with _ => _ end = _ => let E := fresh "E" in destruct z eqn:E; try discriminate H
  end; injection H as <- <-.
Lemma sync_others s y s' t b : sync_box s y = Some (s', t) -> bactor y <> b ->
  sync_rank (SyncProxyModel.pcs s' b) = sync_rank (SyncProxyModel.pcs s b).
Proof.
  intros H N. assert (K : SyncProxyModel.pcs s' b = SyncProxyModel.pcs s b); [|rewrite K; reflexivity].
  destruct y as [a o|a|a o|a]; cbn in *; try discriminate H; [|unfold SyncProxyModel.step_code in H|]; cases H;
    cbn; unfold SyncProxyModel.upd; destruct (Nat.eqb_spec b a); congruence.
Qed.
Lemma async_others s y s' t b : async_box s y = Some (s', t) -> bactor y <> b ->
  async_rank (AsyncProxyModel.pcs s' b) = async_rank (AsyncProxyModel.pcs s b).
Proof.
  intros H N. assert (K : AsyncProxyModel.pcs s' b = AsyncProxyModel.pcs s b); [|rewrite K; reflexivity].
  destruct y as [a o|a|a o|a]; unfold async_box in H; cbn in *; try (unfold AsyncProxyModel.step_code in H); cases H;
    cbn; unfold AsyncProxyModel.upd; destruct (Nat.eqb_spec b a); congruence.
Qed.
Lemma sync_less s y s' t : sync_box s y = Some (s', t) ->
  match y with BCall _ _ => True | _ => sync_rank (SyncProxyModel.pcs s' (bactor y)) < sync_rank (SyncProxyModel.pcs s (bactor y)) end.
Proof.
  intros H. destruct y as [a o|a|a o|a]; cbn in *; try discriminate H; [exact I|unfold SyncProxyModel.step_code in H|]; cases H;
    cbn; unfold SyncProxyModel.upd; rewrite Nat.eqb_refl; cbn; try lia; destruct m; cbn; try lia; destruct o; cbn; lia.
Qed.
Lemma async_less s y s' t : async_box s y = Some (s', t) ->
  match y with BCall _ _ => True | _ => async_rank (AsyncProxyModel.pcs s' (bactor y)) < async_rank (AsyncProxyModel.pcs s (bactor y)) end.
Proof.
  intros H. destruct y as [a o|a|a o|a]; unfold async_box in H; cbn in *; try exact I; try (unfold AsyncProxyModel.step_code in H);
    cases H; try (destruct (AsyncProxyModel.pcs s a) eqn:P; try discriminate);
    repeat match goal with E : AsyncProxyModel.cancel _ = Some _ |- _ => cbn in E; first [discriminate E|injection E as <-] end;
    cbn; unfold AsyncProxyModel.upd; rewrite Nat.eqb_refl; cbn; try lia; destruct m; cbn; try lia; destruct o; cbn; lia.
Qed.

(** ** The scripts *)
Ltac script_ends := repeat match goal with
  | |- within _ _ (Fin _ _) => apply wi_fin; cbn; lia
  | |- within _ _ Wrong => apply wi_wrong
  | |- within ?cost ?n (Op ?o _) =>
      let m := eval vm_compute in (n - cost o) in apply (wi_op cost n m); [vm_compute; repeat constructor|intros ?]
  | |- within _ _ (if ?b then _ else _) => destruct b
  | |- within _ _ (match ?r with _ => _ end) => destruct r
  | |- within _ _ _ => progress cbn
  end.
Lemma sync_std fl keeps k n : within sync_cost 20 (std fl keeps k n).
Proof.
  unfold std, on_guard, on_copy, on_copied, on_write, on_store, on_stored, on_clear, on_isset, xfinish, leave, r_op, xopt.
  destruct k, fl, keeps; script_ends.
Qed.
Lemma async_std fl keeps k n : within async_cost 19 (std fl keeps k n).
Proof.
  unfold std, on_guard, on_copy, on_copied, on_write, on_store, on_stored, on_clear, on_isset, xfinish, leave, r_op, xopt.
  destruct k, fl, keeps; script_ends.
Qed.
Lemma within_more cost n c : within cost n c -> forall m, n <= m -> within cost m c.
Proof. intros W m Le. inversion W; subst; econstructor; try eassumption; lia. Qed.
Lemma sync_uses g u : within sync_cost (match u with LetGo => 4 | _ => 20 end) (use_script g u).
Proof. destruct u as [|[x|]|]; cbn; script_ends. Qed.
Lemma async_uses g u : within async_cost (match u with LetGo => 4 | _ => 20 end) (use_script g u).
Proof. destruct u as [|[x|]|]; cbn; script_ends. Qed.

(** ** Locked fields *)
Inductive lwithin : nat -> lcomp -> Prop :=
| lw_fin n o g : (match g with Some _ => 4 | None => 1 end) <= n -> lwithin n (LFin o g)
| lw_wrong n : lwithin n LWrong
| lw_op n o k : (forall r, lwithin n (k r)) -> lwithin (S n) (LOp o k).
Lemma lwithin_alike c d : alike c d -> forall n, lwithin n d -> lwithin n c.
Proof. induction 1; intros n W; inversion W; subst; constructor; auto. Qed.
Ltac lock_ends := repeat match goal with
  | |- lwithin _ (LFin _ _) => apply lw_fin; cbn; lia
  | |- lwithin _ LWrong => apply lw_wrong
  | |- lwithin _ (LOp _ _) => apply lw_op; intros ?
  | |- lwithin _ (if ?b then _ else _) => destruct b
  | |- lwithin _ (match ?r with _ => _ end) => destruct r
  | |- lwithin _ _ => progress cbn
  end.
Lemma lstd_within opt keeps k n : lwithin 19 (lstd opt keeps k n).
Proof. unfold lstd, l_kept, l_end, tells. destruct k, opt, keeps; lock_ends. Qed.
Lemma lwithin_more n c : lwithin n c -> forall m, n <= m -> lwithin m c.
Proof.
  induction 1 as [n o g L|n|n o k W IH]; intros m Le; try (constructor; lia).
  destruct m; [lia|]. constructor. intros r. apply IH. lia.
Qed.
Definition lasts_lthr (th : lthr) (n : nat) : Prop :=
  match th with
  | LIdle => True
  | LFresh c => exists m, lwithin m c /\ S m <= n
  | LDoing c => lwithin n c
  | LKeeping _ => 3 <= n
  end.
Lemma lset_same f a x : set_lthr f a x a = x.
Proof. unfold set_lthr. rewrite Nat.eqb_refl. reflexivity. Qed.
Lemma lset_other f a b x : a <> b -> set_lthr f a x b = f b.
Proof. intros N. unfold set_lthr. destruct (Nat.eqb_spec b a); congruence. Qed.
Lemma locked_lasts asy opt ms s x y s' h a n :
  (forall m v, In m ms -> lwithin 19 (lscript asy opt m v)) ->
  as_lact x = Some y -> lmove asy opt ms s y = Some (s', h) -> lasts_lthr (l_thr s a) n ->
  if Nat.eqb (actor x) a
  then if calm x then exists m, S m <= n /\ lasts_lthr (l_thr s' a) m else lasts_lthr (l_thr s' a) 20
  else lasts_lthr (l_thr s' a) n.
Proof.
  intros Short X H L. destruct (Nat.eqb_spec (actor x) a) as [E|N].
  - subst a. destruct x as [a k v|a u|a|a|a b|a]; try discriminate X; injection X as <-; cbn [lmove actor calm] in *.
    + destruct (l_thr s a); try discriminate H. destruct (find_method k ms) as [m|] eqn:F; [|discriminate H].
      injection H as <- <-. cbn [l_thr]. rewrite lset_same. apply find_kind in F as [I _].
      pose proof (Short m v I) as W. destruct (m_async m); cbn; [exists 19; auto|]. apply (lwithin_more _ _ W). lia.
    + destruct (l_thr s a) as [| | |g]; try discriminate H. destruct (luse_ok opt g u); [|discriminate H].
      injection H as <- <-. cbn [l_thr]. rewrite lset_same. cbn [lasts_lthr] in *.
      destruct u as [|z|]; cbn [luse]; [|lock_ends|exists 2; split; [lia|lock_ends]]. lock_ends.
    + destruct (l_thr s a) as [|c|[o g| |o k]|g]; try discriminate H.
      * injection H as <- <-. cbn [l_thr]. rewrite lset_same. cbn in *. destruct L as (m & W & Le). exists m. auto.
      * injection H as <- <-. cbn [l_thr]. rewrite lset_same. cbn in L. inversion L as [? ? ? Le| |]; subst.
        destruct g; [exists 3|exists 0]; cbn; split; try lia; exact I.
      * destruct (lstep (l_box s) a o) as [b|] eqn:B; [|discriminate H]. injection H as <- <-.
        cbn [l_thr]. rewrite lset_same. cbn in L. inversion L as [| |m ? ? W]; subst. exists m. split; [lia|]. cbn. apply W.
    + destruct (l_thr s a) as [|c|[o g| |[w| | |] k]|g]; try discriminate H.
      * injection H as <- <-. cbn [l_thr]. rewrite lset_same. cbn in L. destruct L as (m & _ & Le). exists m. cbn. auto.
      * destruct asy; [|discriminate H]. injection H as <- <-. cbn [l_thr]. rewrite lset_same. cbn in L. inversion L; subst.
        eexists. split; [apply Nat.le_refl|exact I].
  - assert (K : l_thr s' a = l_thr s a); [|rewrite K; exact L].
    destruct x as [b k v|b u|b|b|b o|b]; try discriminate X; injection X as <-; cbn [lmove actor] in *;
      repeat match type of H with
      | match ?z with _ => _ end = _ => let E := fresh "E" in destruct z eqn:E; try discriminate H
      end; injection H as <- <-; cbn [l_thr]; apply lset_other, N.
Qed.

(** ** Open fields *)
Definition lasts_othr (th : othr) (n : nat) : Prop :=
  match th with TIdle => True | TFresh _ _ => 3 <= n | TDoing _ _ => 2 <= n | TDone _ => 1 <= n end.
Lemma open_lasts dflt user p w th x w' th' h a n : open_step dflt user p w th x = Some (w', th', h) -> lasts_othr (th a) n ->
  if Nat.eqb (actor x) a
  then if calm x then exists m, S m <= n /\ lasts_othr (th' a) m else lasts_othr (th' a) 20
  else lasts_othr (th' a) n.
Proof.
  intros H L. destruct (Nat.eqb_spec (actor x) a) as [E|N].
  - subst a. destruct x as [a k v|a u|a|a|a b|a]; cbn [open_step actor calm] in *; try discriminate H.
    + destruct (th a); try discriminate H. destruct (find_method k (p_methods p)) as [m|]; [|discriminate H].
      destruct (by_reference m); [|discriminate H]. injection H as <- <- <-. unfold set_othr. rewrite Nat.eqb_refl.
      destruct (m_async m); cbn; lia.
    + destruct (th a) as [|m v|m v|o]; try discriminate H.
      * injection H as <- <- <-. unfold set_othr. rewrite Nat.eqb_refl. cbn in *. exists 2. lia.
      * destruct (open_call dflt user p m v w) as [[o w1]|]; [|discriminate H]. injection H as <- <- <-.
        unfold set_othr. rewrite Nat.eqb_refl. cbn in *. exists 1. lia.
      * injection H as <- <- <-. unfold set_othr. rewrite Nat.eqb_refl. cbn in *. exists 0. lia.
    + destruct (th a) as [|m v|m v|o]; try discriminate H. injection H as <- <- <-. unfold set_othr. rewrite Nat.eqb_refl.
      cbn in *. exists 0. lia.
  - assert (K : th' a = th a); [|rewrite K; exact L].
    destruct x as [b k v|b u|b|b|b o|b]; cbn [open_step actor] in *; try discriminate H;
      repeat match type of H with
      | match ?z with _ => _ end = _ => let E := fresh "E" in destruct z eqn:E; try discriminate H
      end; injection H as <- <- <-; unfold set_othr; destruct (Nat.eqb_spec a b); congruence.
Qed.

(** ** Any field *)
Definition lasts (s : fstate) (a : aid) (n : nat) : Prop :=
  match s with
  | FSync s => lasts_thr sync_cost (sync_rank (SyncProxyModel.pcs (m_box s) a)) (m_thr s a) n
  | FAsync s => lasts_thr async_cost (async_rank (AsyncProxyModel.pcs (m_box s) a)) (m_thr s a) n
  | FLock s => lasts_lthr (l_thr s a) n
  | FOpen _ th => lasts_othr (th a) n
  end.
Section Field.
Variables (c : sctx) (f : field).
Variables (dflt : nat) (user : string -> nat) (o : option nat) (p : part).
Hypothesis Sk : f_is_skipped f = false.
Hypothesis Po : part_of c f o = Some p.
Hypothesis Wk : forall k, In k (map m_kind (p_methods p)) -> works c f k = true.
Lemma part_lasts s x s' h t a n : part_step dflt user p s x = Some (s', h, t) -> lasts s a n ->
  if Nat.eqb (actor x) a
  then if calm x then exists m, S m <= n /\ lasts s' a m else lasts s' a 20
  else lasts s' a n.
Proof.
  destruct (part_facts c f o p Po) as (ty & ms & T & M & So & Rp & Pm & Pf & Pc). unfold part_step. rewrite Pm in *.
  destruct (p_store p) as [[|]|b op|] eqn:Ps; destruct s as [s|s|s|w th]; try discriminate.
  - destruct (lazy_type c f ty true T So) as (Sy & La & _ & As).
    destruct (mstep _ async_box ms true true s x) as [[[s1 h1] t1]|] eqn:St; [|discriminate]. intros H L. injection H as <- <- <-.
    refine (lazy_lasts async_cost _ async_box (fun b a => async_rank (AsyncProxyModel.pcs b a)) async_call async_others async_less ms true true
      _ async_uses s x s1 h1 t1 a n St L).
    intros m v I. pose proof (proj2 (methods_std c f true ms Sy La Sk M (fun _ => eq_refl) Wk m v I)) as D. rewrite As in D. rewrite D.
    destruct (m_async m); [apply async_std|]. apply (within_more _ _ _ (async_std _ _ _ _)). lia.
  - destruct (lazy_type c f ty false T So) as (Sy & La & _ & As).
    destruct (mstep _ sync_box ms false true s x) as [[[s1 h1] t1]|] eqn:St; [|discriminate]. intros H L. injection H as <- <- <-.
    refine (lazy_lasts sync_cost _ sync_box (fun b a => sync_rank (SyncProxyModel.pcs b a)) sync_call sync_others sync_less ms false true
      _ sync_uses s x s1 h1 t1 a n St L).
    intros m v I. assert (Na : m_async m = false).
    { destruct (m_async m) eqn:E; [|reflexivity]. pose proof M as M'. unfold field_methods in M'. rewrite Sy in M'.
      pose proof (async_method _ _ m M' I E) as Q. change (g_async (cfg_of c f)) with (is_async c f) in Q. congruence. }
    pose proof (proj2 (methods_std c f true ms Sy La Sk M (fun _ => eq_refl) Wk m v I)) as D. rewrite As in D. rewrite Na, D. apply sync_std.
  - apply store_lock in So. destruct (as_lact x) as [y|] eqn:X; [|discriminate].
    destruct (lmove b op ms s y) as [[s1 h1]|] eqn:St; [|discriminate]. intros H L. injection H as <- <- <-.
    refine (locked_lasts b op ms s x y s1 h1 a n _ X St L).
    intros m v I. apply (lwithin_alike _ _ (proj2 (methods_lstd c f ty b op ms T So M Wk m v I))), lstd_within.
  - destruct (open_step dflt user p w th x) as [[[w1 th1] h1]|] eqn:St; [|discriminate]. intros H L. injection H as <- <- <-.
    exact (open_lasts dflt user p w th x w1 th1 h1 a n St L).
Qed.
End Field.
Lemma start_lasts p a : lasts (part_start p) a 0.
Proof. unfold part_start. destruct (p_store p) as [[|]|b op|]; exact I. Qed.
