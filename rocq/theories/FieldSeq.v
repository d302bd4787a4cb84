(** Sequences of calls on one field, with guards kept in between. *)
From Coq Require Import List Bool String Arith Lia.
From Verif Require Import ProxyTypes ArgsModel CtxModel RustAst CommonGen PlainGen SyncGen StructGen
  CodegenSpec CodegenProofs RustSem FieldSpec FieldRun FieldProofs.
Import ListNotations.
Open Scope string_scope.

(** Types that store a given view. *)
Inductive fits : ty -> view -> Prop :=
| fit_bare w : v_shape w = Bare -> v_disc w = Direct -> fits TT w
| fit_bare_cell w : v_shape w = Bare -> v_disc w = Panicking -> fits (TCell TT) w
| fit_bare_lock a w : v_shape w = Bare -> v_disc w = Blocking -> fits (TLock a TT) w
| fit_maybe w : v_shape w = Maybe -> v_disc w = Direct -> fits (TOpt TT) w
| fit_maybe_cell w : v_shape w = Maybe -> v_disc w = Panicking -> fits (TCell (TOpt TT)) w
| fit_maybe_lock a w : v_shape w = Maybe -> v_disc w = Blocking -> fits (TLock a (TOpt TT)) w
| fit_lazy f w : v_shape w = Lazy f -> v_disc w = Direct -> fits (TOnce TT) w
| fit_lazy_proxy (a : bool) b f w : v_shape w = Lazy f -> v_disc w = (if a then Solo else Blocking) -> fits (TProxy a b) w.

Section Seq.
Variable bld : nat -> outcome nat nat.
Variable dflt : nat.
Variable v : view.

(** What a returning call does to the guards and to the content. *)
Lemma call_facts : forall k n c an c', spec_call bld dflt v k n c = Returns an c' ->
  (match an with AnErr _ => c_readers c' = c_readers c /\ c_writer c' = c_writer c /\ v_shape v <> Maybe
   | _ => match hands_guard v k with
          | None => c_readers c' = c_readers c /\ c_writer c' = c_writer c
          | Some h =>
              if gd_write h then c_readers c = 0 /\ c_writer c = false /\
                                 c_readers c' = 0 /\ c_writer c' = true
              else c_writer c = false /\ c_readers c' = S (c_readers c) /\ c_writer c' = false
          end
   end) /\
  (v_disc v <> Direct -> c_val c' <> c_val c -> c_readers c = 0 /\ c_writer c = false) /\
  (c_val c' = None -> v_shape v <> Maybe ->
     (match an with AnErr _ => True
      | _ => match hands_guard v k with Some h => gd_raw h = true | None => True end end) /\
     match k with KAccessorMut => match an with AnErr _ => True | _ => False end | _ => True end) /\
  (v_shape v = Bare -> c_val c <> None -> c_val c' <> None) /\
  (match hands_guard v k with Some h => gd_raw h = true -> gd_write h = true /\ is_lazy_view v = true
   | None => True end).
Proof.
  destruct v as [sh di ke]; intros k n [o r w b] an c' H.
  destruct k; try discriminate H; destruct sh as [| |fl]; destruct di;
  unfold spec_call, look, with_access, excluded, keeping in H; cbn in H;
  repeat match type of H with
  | Returns _ _ = Returns _ _ => fail 1
  | context [bld ?x] => destruct (bld x); cbn in H; try discriminate H
  | context [?x || _] => is_var x; destruct x; cbn in H; try discriminate H
  | context [match ?x with _ => _ end] => is_var x; destruct x; cbn in H; try discriminate H
  end;
  injection H as <- <-; try destruct ke; try destruct o; cbn;
  repeat match goal with |- _ /\ _ => split end;
  first [exact I | reflexivity | intros; first [exact I | discriminate | congruence | split; reflexivity | tauto]].
Qed.
(** A panicking or waiting call changes nothing but the number of builder calls. *)
Lemma fail_facts : forall k n c c',
  spec_call bld dflt v k n c = Panics c' \/ spec_call bld dflt v k n c = Waits c' ->
  c_val c' = c_val c /\ c_readers c' = c_readers c /\ c_writer c' = c_writer c.
Proof.
  destruct v as [sh di ke]; intros k n [o r w b] c' H.
  destruct k; try (destruct H; discriminate); destruct sh as [| |fl]; destruct di;
  unfold spec_call, look, with_access, excluded, keeping in H; cbn in H;
  destruct H as [H|H];
  repeat match type of H with
  | Panics _ = _ => fail 1
  | Waits _ = _ => fail 1
  | context [bld ?x] => destruct (bld x); cbn in H; try discriminate H
  | context [?x || _] => is_var x; destruct x; cbn in H; try discriminate H
  | context [match ?x with _ => _ end] => is_var x; destruct x; cbn in H; try discriminate H
  end; try discriminate H; injection H as <-; cbn; auto.
Qed.

(** ** Guards in a list *)
Arguments readers : simpl never.
Arguments writing : simpl never.
Lemma readers_app : forall a b, readers (a ++ b)%list = readers a + readers b.
Proof. intros. unfold readers. rewrite filter_app, app_length. reflexivity. Qed.
Lemma writing_app : forall a b, writing (a ++ b)%list = writing a || writing b.
Proof. intros. apply existsb_app. Qed.
Lemma readers_snoc : forall l h, readers (l ++ [h])%list = (if gd_write h then 0 else 1) + readers l.
Proof. intros. rewrite readers_app. unfold readers at 2. cbn. destruct (gd_write h); cbn; lia. Qed.
Lemma writing_snoc : forall l h, writing (l ++ [h])%list = gd_write h || writing l.
Proof. intros. rewrite writing_app. unfold writing at 2. cbn. now rewrite orb_false_r, orb_comm. Qed.
Lemma drop_nth_spec : forall l i (h : guard), nth_error l i = Some h ->
  readers l = (if gd_write h then 0 else 1) + readers (drop_nth l i) /\
  (writing l = gd_write h || writing (drop_nth l i)).
Proof.
  induction l as [|x l IH]; intros [|i] h H; try discriminate; cbn in *.
  - injection H as ->. unfold readers, writing; cbn. destruct (gd_write h); cbn; auto.
  - destruct (IH _ _ H) as [R W]. unfold readers, writing in *; cbn. rewrite W.
    destruct (gd_write x), (gd_write h); cbn in *; split; try lia; try reflexivity.
Qed.
Lemma drop_nth_map : forall A B (f : A -> B) l i, drop_nth (map f l) i = map f (drop_nth l i).
Proof. induction l as [|x l IH]; intros [|i]; cbn; try reflexivity. now rewrite IH. Qed.
Lemma in_drop_nth : forall A (l : list A) i x, In x (drop_nth l i) -> In x l.
Proof.
  induction l as [|y l IH]; intros [|i] x H; cbn in *; auto. destruct H as [->|H]; eauto.
Qed.

(** ** The simulation *)
Variable t : ty.
Hypothesis Hfit : fits t v.
Definition handle (h : guard) : bool * path_in := (gd_write h, hpath t (gd_raw h)).
Record sim (iu : ist) (u : ust) : Prop := {
  sim_shows : shows t (i_st iu) (cell_of u);
  sim_handles : i_guards iu = map handle (u_guards u);
  sim_excl : writing (u_guards u) = true -> List.length (u_guards u) = 1;
  sim_direct : v_disc v = Direct -> u_guards u = [];
  sim_raw : forall h, In h (u_guards u) -> gd_raw h = true -> gd_write h = true /\ is_lazy_view v = true;
  sim_full : forall h, In h (u_guards u) -> gd_raw h = false -> v_shape v <> Maybe -> u_val u <> None
}.

Lemma assign_ok : forall s o raw x, rep t o = Some (fld s) -> assignable v raw x = true ->
  (raw = true -> v_disc v <> Direct /\ is_lazy_view v = true) ->
  (raw = false -> v_shape v <> Maybe -> o <> None) ->
  exists s', assign_at s (hpath t raw) x = Some s' /\ rep t x = Some (fld s') /\
    rd s' = rd s /\ wr s' = wr s /\ calls s' = calls s.
Proof.
  intros [fl r w ca] o raw x Hrep Ha Hraw Hfull.
  unfold assignable, is_lazy_view in *. cbn in Hrep.
  destruct Hfit as [w0 S D|w0 S D|a w0 S D|w0 S D|w0 S D|a w0 S D|f w0 S D|a b f w0 S D]; rewrite S in *;
  cbn in *; destruct raw; try (destruct (Hraw eq_refl); congruence);
  destruct o as [o|]; destruct x as [x|]; cbn in *; try discriminate;
  try (exfalso; apply Hfull; congruence);
  injection Hrep as <-; cbn; eexists; (split; [reflexivity|]); cbn; auto.
Qed.
Lemma shown_ok : forall s o raw, rep t o = Some (fld s) ->
  (raw = true -> v_disc v <> Direct /\ is_lazy_view v = true) ->
  (raw = false -> v_shape v <> Maybe -> o <> None) ->
  see_at s (hpath t raw) = Some (shown v raw o).
Proof.
  intros [fl r w ca] o raw Hrep Hraw Hfull.
  unfold shown, is_lazy_view in *. cbn in Hrep.
  destruct Hfit as [w0 S D|w0 S D|a w0 S D|w0 S D|w0 S D|a w0 S D|f w0 S D|a b f w0 S D]; rewrite S in *;
  cbn in *; destruct raw; try (destruct (Hraw eq_refl); congruence);
  destruct o as [o|]; cbn in *; try discriminate;
  try (exfalso; apply Hfull; congruence);
  injection Hrep as <-; reflexivity.
Qed.
Lemma content_ok : forall s o, rep t o = Some (fld s) -> v_shape v = Bare -> o <> None.
Proof.
  intros s o H HS. destruct Hfit; try congruence; destruct o; cbn in H; try discriminate; congruence.
Qed.

(** ** One act *)
Variables fallible alive : bool.
Variable user : string -> nat.
Variable ms : list mdecl.
Variable offered : hkind -> bool.
Hypothesis Hms : forall k, offered k = true -> exists m, find_method k ms = Some m /\
  forall n s c, shows t s c -> no_guards (v_disc v) c ->
    agrees t v k (call bld fallible alive dflt user m n s) (spec_call bld dflt v k n c).
Definition allowed (a : act) : bool := match a with ACall k _ _ => offered k | _ => true end.

Hypothesis Hwriter : offered KWriter = true -> v_disc v <> Direct.

Lemma sim_no_guards : forall iu u, sim iu u -> no_guards (v_disc v) (cell_of u).
Proof. intros iu u [_ _ _ D _ _] HD. cbn. rewrite (D HD). auto. Qed.

Lemma readers_length : forall l, writing l = false -> readers l = List.length l.
Proof.
  induction l as [|h l IH]; cbn; auto. intros H. apply orb_false_iff in H as [H1 H2].
  unfold readers in *. cbn. rewrite H1. cbn. now rewrite IH.
Qed.
Lemma no_readers_nil : forall l, readers l = 0 -> writing l = false -> l = [].
Proof. intros l R W. rewrite (readers_length _ W) in R. now destruct l. Qed.

Lemma grip_kept : forall w, grip w = None -> kept w = None.
Proof. fix IH 1. intros [] H; cbn in *; try reflexivity; try discriminate. exact (IH _ H). Qed.

(** Content changes only when nobody keeps a guard. *)
Lemma full_kept : forall (gs : list guard) (o o' : option nat),
  (v_disc v = Direct -> gs = []) ->
  (forall h, In h gs -> gd_raw h = false -> v_shape v <> Maybe -> o <> None) ->
  (v_disc v <> Direct -> o' <> o -> readers gs = 0 /\ writing gs = false) ->
  forall h, In h gs -> gd_raw h = false -> v_shape v <> Maybe -> o' <> None.
Proof.
  intros gs o o' Di Fu F h Hin Hr Hs E. pose proof (Fu h Hin Hr Hs) as N.
  assert (D : v_disc v <> Direct) by (intro D; rewrite (Di D) in Hin; destruct Hin).
  destruct (F D) as [R W]; [congruence|]. rewrite (no_readers_nil _ R W) in Hin. destruct Hin.
Qed.

Lemma step_sim : forall a iu u o u', sim iu u -> allowed a = true ->
  spec_act bld dflt v a u = Some (o, u') ->
  exists iu', impl_act bld fallible alive dflt user ms a iu = Some (o, iu') /\ sim iu' u'.
Proof.
  intros a iu u o u' S Ha H. pose proof (sim_no_guards _ _ S) as NG.
  destruct S as [Sh Hh Ex Di Ra Fu].
  destruct a as [k n us|i|i x|i]; cbn in *.
  - destruct (Hms k Ha) as (m & -> & Hag). specialize (Hag n _ _ Sh NG).
    destruct (spec_call bld dflt v k n (cell_of u)) as [an c|c|c|] eqn:Q;
    destruct (call bld fallible alive dflt user m n (i_st iu)) as [w s|s|s|] eqn:C;
    cbn in Hag; try contradiction; try discriminate H.
    + destruct (call_facts _ _ _ _ _ Q) as (F1 & F2 & F3 & F4 & F5). cbn in F1, F2, F4.
      destruct Hag as (-> & (S1 & S2 & S3 & S4) & G).
      assert (KF := full_kept (u_guards u) (u_val u) (c_val c) Di Fu F2).
      assert (NE : match an with AnErr _ => kept w = None /\ grip w = None | _ => True end).
      { destruct an; auto. cbn in G. split; [apply grip_kept|]; exact G. }
      assert (DK : forall s0, rd s0 = rd s -> wr s0 = wr s ->
                 rd (drop_kept s0 w) = readers (u_guards u) /\
                 wr (drop_kept s0 w) = writing (u_guards u) /\
                 fld (drop_kept s0 w) = fld s0 /\ calls (drop_kept s0 w) = calls s0).
      { intros s0 E1 E2. unfold drop_kept.
        assert (K : kept w = match an with AnErr _ => None | _ =>
                      match hands_guard v k with Some h => Some (gd_write h, hpath t (gd_raw h))
                      | None => None end end).
        { destruct an; cbn in G; try exact (proj1 G). exact (proj1 NE). }
        rewrite K; clear K G NE.
        assert (F : match an with AnErr _ => False | _ => hands_guard v k <> None end \/
                    (rd s = readers (u_guards u) /\ wr s = writing (u_guards u) /\
                     match an with AnErr _ => True | _ => hands_guard v k = None end)).
        { destruct an; try (right; repeat split; [rewrite S2; apply F1 | rewrite S3; apply F1]);
          destruct (hands_guard v k); (left; discriminate) ||
            (right; repeat split; [rewrite S2; apply F1 | rewrite S3; apply F1]). }
        destruct F as [F|(Fa & Fb & F)].
        - destruct (hands_guard v k) as [h|]; [|exfalso; destruct an; try contradiction; congruence].
          assert (F1' : if gd_write h then readers (u_guards u) = 0 /\ writing (u_guards u) = false /\
                                 c_readers c = 0 /\ c_writer c = true
              else writing (u_guards u) = false /\ c_readers c = S (readers (u_guards u)) /\ c_writer c = false)
            by (destruct an; try contradiction; exact F1).
          replace (match an with AnErr _ => None | _ => Some (gd_write h, hpath t (gd_raw h)) end)
            with (Some (gd_write h, hpath t (gd_raw h))) by (destruct an; try contradiction; reflexivity).
          destruct (gd_write h); cbn.
          + destruct F1' as (A1 & A2 & A3 & A4). repeat split; congruence.
          + destruct F1' as (A1 & A2 & A3). rewrite E1, S2, A2. repeat split; congruence.
        - replace (match an with AnErr _ => None | _ => match hands_guard v k with Some h =>
             Some (gd_write h, hpath t (gd_raw h)) | None => None end end) with (@None (bool * path_in))
            by (destruct an; try reflexivity; rewrite F; reflexivity).
          repeat split; congruence. }
      destruct us as [| |x].
      * assert (KE : (exists h, hands_guard v k = Some h /\ (forall e, an <> AnErr e)) \/
                    (kept w = None /\ u' = mk_ust (c_val c) (u_guards u) (c_builds c) /\ o = ORet an)).
        { destruct an; cbn in G;
          try (right; repeat split; [exact (proj1 NE)|injection H as <- <-; reflexivity|injection H as <- <-; reflexivity]);
          destruct (hands_guard v k) as [h|];
          try (left; exists h; split; [reflexivity|discriminate]);
          right; repeat split; try exact (proj1 G); injection H as <- <-; reflexivity. }
        destruct KE as [(h & Hg & Ne)|(K & -> & ->)].
        -- rewrite Hg in *.
           assert (H' : o = ORet an /\ u' = mk_ust (c_val c) (u_guards u ++ [h])%list (c_builds c))
             by (destruct an; try (injection H as <- <-; auto; fail); exfalso; eapply Ne; reflexivity).
           destruct H' as [-> ->].
           assert (K : kept w = Some (handle h))
             by (destruct an; cbn in G; try rewrite Hg in G; try exact (proj1 G); exfalso; eapply Ne; reflexivity).
           assert (F1' : if gd_write h then readers (u_guards u) = 0 /\ writing (u_guards u) = false /\
                                 c_readers c = 0 /\ c_writer c = true
              else writing (u_guards u) = false /\ c_readers c = S (readers (u_guards u)) /\ c_writer c = false)
             by (destruct an; try exact F1; exfalso; eapply Ne; reflexivity).
           rewrite K. eexists; split; [reflexivity|]. constructor; cbn.
           ++ repeat split; cbn; try assumption; rewrite ?readers_snoc, ?writing_snoc;
              destruct (gd_write h); cbn.
              ** destruct F1' as (A1 & A2 & A3 & A4). congruence.
              ** destruct F1' as (A1 & A2 & A3). congruence.
              ** destruct F1' as (A1 & A2 & A3 & A4). congruence.
              ** destruct F1' as (A1 & A2 & A3). congruence.
           ++ rewrite Hh, map_app. reflexivity.
           ++ rewrite writing_snoc. intros W. rewrite app_length. cbn.
              destruct (gd_write h).
              ** destruct F1' as (A1 & A2 & _). rewrite (no_readers_nil _ A1 A2). reflexivity.
              ** destruct F1' as (A1 & _). rewrite A1 in W. discriminate W.
           ++ intros D. exfalso. unfold hands_guard in Hg. rewrite D in Hg. discriminate.
           ++ intros h' Hin R. apply in_app_or in Hin as [Hin|[<-|[]]]; [apply Ra; assumption|exact (F5 R)].
           ++ intros h' Hin R M E. apply in_app_or in Hin as [Hin|[<-|[]]]; [exact (KF _ Hin R M E)|].
              destruct (F3 E M) as [F3' _]. destruct an; congruence.
        -- rewrite K, app_nil_r. eexists; split; [reflexivity|].
           destruct (DK s eq_refl eq_refl) as (D1 & D2 & D3 & D4). unfold drop_kept in *. rewrite K in *.
           constructor; cbn; auto. repeat split; cbn; congruence.
      * replace (match an with AnErr _ => _ | _ => _ end) with
          (Some (ORet an, mk_ust (c_val c) (u_guards u) (c_builds c))) in H by (destruct an; reflexivity).
        injection H as <- <-. eexists; split; [reflexivity|].
        destruct (DK s eq_refl eq_refl) as (D1 & D2 & D3 & D4).
        constructor; cbn; auto. repeat split; cbn; congruence.
      * destruct (mutator k && assignable v (raw_writer v k) x) eqn:MA;
          [|destruct an; discriminate H].
        apply andb_true_iff in MA as [Mu As].
        assert (H' : o = ORet an /\ u' = match an with
                       | AnErr _ => mk_ust (c_val c) (u_guards u) (c_builds c)
                       | _ => mk_ust x (u_guards u) (c_builds c) end)
          by (destruct an; injection H as <- <-; auto).
        destruct H' as [-> ->]. clear H.
        destruct (DK s eq_refl eq_refl) as (D1 & D2 & D3 & D4).
        assert (G' : (exists e, an = AnErr e) \/ (grip w = Some (hpath t (raw_writer v k)) /\
                     (forall e, an <> AnErr e)))
          by (destruct an; cbn in G; try (right; split; [exact (proj2 G Mu)|discriminate]); eauto).
        destruct G' as [[e ->]|[-> Ne]].
        -- destruct NE as [_ ->]. eexists; split; [reflexivity|].
           constructor; cbn; auto. repeat split; cbn; congruence.
        -- replace (match an with AnErr _ => mk_ust (c_val c) (u_guards u) (c_builds c)
                    | _ => mk_ust x (u_guards u) (c_builds c) end) with (mk_ust x (u_guards u) (c_builds c))
             by (destruct an; try reflexivity; exfalso; eapply Ne; reflexivity).
           destruct (assign_ok s (c_val c) (raw_writer v k) x S1 As) as (s' & -> & R1 & R2 & R3 & R4).
           ++ intros R. destruct k; try discriminate R. split; [exact (Hwriter Ha)|exact R].
           ++ intros R M E. destruct (F3 E M) as [_ F3']. destruct k; try discriminate Mu.
              ** destruct an; try contradiction. eapply Ne; reflexivity.
              ** apply (content_ok s (c_val c) S1); [|exact E]. unfold raw_writer, is_lazy_view in R.
                 destruct (v_shape v); congruence.
           ++ eexists; split; [reflexivity|]. destruct (DK s' R2 R3) as (E1 & E2 & E3 & E4).
              assert (Gn : u_guards u = []).
              { destruct (v_disc v) eqn:Dv; [auto|..];
                (assert (Hg : hands_guard v k = Some (mk_guard true (raw_writer v k)))
                   by (unfold hands_guard; rewrite Dv; destruct k; try discriminate Mu; reflexivity);
                 rewrite Hg in F1; cbn in F1;
                 assert (F1' : readers (u_guards u) = 0 /\ writing (u_guards u) = false)
                   by (destruct an; try (split; apply F1); exfalso; eapply Ne; reflexivity);
                 apply no_readers_nil; apply F1'). }
              constructor; cbn; auto; [|rewrite Gn; intros h' []]. repeat split; cbn; congruence.
    + injection H as <- <-. eexists; split; [reflexivity|].
      destruct (fail_facts _ _ _ _ (or_introl Q)) as (F1 & F2 & F3). cbn in *.
      destruct Hag as (S1 & S2 & S3 & S4).
      constructor; cbn; auto; [|rewrite F1; exact Fu]. repeat split; cbn; congruence.
    + injection H as <- <-. eexists; split; [reflexivity|].
      destruct (fail_facts _ _ _ _ (or_intror Q)) as (F1 & F2 & F3). cbn in *.
      destruct Hag as (S1 & S2 & S3 & S4).
      constructor; cbn; auto; [|rewrite F1; exact Fu]. repeat split; cbn; congruence.
  - destruct (nth_error (u_guards u) i) as [h|] eqn:N; [|discriminate]. injection H as <- <-.
    rewrite Hh, (map_nth_error handle _ _ N). unfold handle at 1.
    pose proof (nth_error_In _ _ N) as Hin. destruct Sh as (S1 & S2).
    rewrite (shown_ok (i_st iu) (u_val u) (gd_raw h)).
    + eexists; split; [reflexivity|]. now constructor.
    + exact S1.
    + intros R. split; [|exact (proj2 (Ra _ Hin R))]. intros D. rewrite (Di D) in Hin. destruct Hin.
    + intros R. exact (Fu _ Hin R).
  - destruct (nth_error (u_guards u) i) as [h|] eqn:N; [|discriminate].
    pose proof (nth_error_In _ _ N) as Hin.
    destruct (gd_write h) eqn:W; [|discriminate]. cbn in H.
    destruct (assignable v (gd_raw h) x) eqn:A; [|discriminate]. injection H as <- <-.
    rewrite Hh, (map_nth_error handle _ _ N). unfold handle at 1. destruct Sh as (S1 & S2).
    destruct (assign_ok (i_st iu) (u_val u) (gd_raw h) x S1 A) as (s' & -> & R1 & R2 & R3 & R4).
    + intros R. split; [|exact (proj2 (Ra _ Hin R))]. intros D. rewrite (Di D) in Hin. destruct Hin.
    + intros R. exact (Fu _ Hin R).
    + eexists; split; [reflexivity|]. cbn in S2. destruct S2 as (S2 & S3 & S4).
      constructor; cbn; auto.
      * repeat split; cbn; congruence.
      * intros h' Hin' R' M E. 
        assert (L : List.length (u_guards u) = 1).
        { apply Ex. unfold writing. rewrite existsb_exists. eauto. }
        destruct (u_guards u) as [|h0 [|h1 l]]; cbn in L; try discriminate.
        destruct Hin as [<-|[]], Hin' as [<-|[]].
        unfold assignable in A. rewrite R', E in A. destruct (v_shape v); try discriminate; congruence.
  - destruct (nth_error (u_guards u) i) as [h|] eqn:N; [|discriminate]. injection H as <- <-.
    rewrite Hh, (map_nth_error handle _ _ N). unfold handle at 1.
    eexists; split; [reflexivity|]. destruct (drop_nth_spec _ _ _ N) as [R W].
    destruct Sh as (S1 & S2 & S3 & S4). cbn in *.
    constructor; cbn.
    + unfold release. destruct (gd_write h) eqn:G; repeat split; cbn in *; auto; try congruence.
      * assert (L : List.length (u_guards u) = 1) by (apply Ex; rewrite W; reflexivity).
        destruct (u_guards u) as [|h0 [|h1 l]]; cbn in L; try discriminate.
        destruct i as [|i]; [reflexivity|]. destruct i; discriminate N.
      * rewrite S2, R. reflexivity.
    + rewrite drop_nth_map. reflexivity.
    + intros W'. assert (L : List.length (u_guards u) = 1) by (apply Ex; rewrite W, W', orb_true_r; reflexivity).
      destruct (u_guards u) as [|h0 [|h1 l]]; cbn in L; try discriminate.
      destruct i as [|i]; [discriminate W'|]. destruct i; discriminate N.
    + intros D. rewrite (Di D). destruct i; reflexivity.
    + intros h' Hin'. apply Ra. eapply in_drop_nth; eauto.
    + intros h' Hin'. apply Fu. eapply in_drop_nth; eauto.
Qed.

Lemma run_sim : forall l iu u os u', sim iu u -> forallb allowed l = true ->
  spec_run bld dflt v l u = Some (os, u') ->
  exists iu', impl_run bld fallible alive dflt user ms l iu = Some (os, iu') /\ sim iu' u'.
Proof.
  induction l as [|a l IH]; intros iu u os u' S Ha H; cbn in *.
  - injection H as <- <-. eauto.
  - apply andb_true_iff in Ha as [Ha Hl].
    destruct (spec_act bld dflt v a u) as [[o u1]|] eqn:Q; [|discriminate].
    destruct (step_sim _ _ _ _ _ S Ha Q) as (iu1 & -> & S1).
    destruct o; try (injection H as <- <-; eauto; fail);
    (destruct (spec_run bld dflt v l u1) as [[os1 u2]|] eqn:Q2; [|discriminate];
     injection H as <- <-;
     destruct (IH _ _ _ _ S1 Hl Q2) as (iu2 & -> & S2); eauto).
Qed.
End Seq.
