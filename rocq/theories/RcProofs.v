(** Proof support for properties C26, C27 and C51. *)
From Coq Require Import List Bool Arith Lia.
From Verif Require Import RcSpec RcModel.
Import ListNotations.

(** Lists. *)
Lemma total_app {A} (f : A -> nat) a b : total f (a ++ b) = total f a + total f b.
Proof. induction a; simpl; [reflexivity|]. rewrite IHa. lia. Qed.

Lemma total_alter {A} (f : A -> nat) i g l x : nth_error l i = Some x ->
  total f (alter i g l) + f x = total f l + f (g x).
Proof.
  revert l. induction i as [|i IH]; intros [|y l] H; simpl in *; try discriminate.
  - injection H as <-. lia.
  - specialize (IH l H). lia.
Qed.

Lemma total_same {A} (f : A -> nat) i g l : (forall x, f (g x) = f x) -> total f (alter i g l) = total f l.
Proof.
  intros H. revert l. induction i as [|i IH]; intros [|y l]; simpl; auto.
Qed.

Lemma alter_length {A} i (g : A -> A) l : length (alter i g l) = length l.
Proof. revert l. induction i as [|i IH]; intros [|y l]; simpl; auto. Qed.

Lemma alter_nth {A} i (g : A -> A) l j :
  nth_error (alter i g l) j = if i =? j then option_map g (nth_error l j) else nth_error l j.
Proof.
  revert l j. induction i as [|i IH]; intros [|y l] [|j]; simpl; auto.
  - destruct (i =? j); reflexivity.
Qed.

Lemma total_le {A} (f : A -> nat) i l x : nth_error l i = Some x -> f x <= total f l.
Proof.
  revert l. induction i as [|i IH]; intros [|y l] H; simpl in *; try discriminate.
  - injection H as <-. lia.
  - specialize (IH l H). lia.
Qed.

Lemma total_pos {A} (f : A -> nat) l : 0 < total f l -> exists i x, nth_error l i = Some x /\ 0 < f x.
Proof.
  induction l as [|y l IH]; simpl; [lia|]. intros H.
  destruct (f y) as [|n] eqn:E.
  - destruct (IH H) as (i & x & N & P). exists (S i), x. auto.
  - exists 0, y. split; [reflexivity|lia].
Qed.

Lemma nth_app_last {A} (l : list A) x i : nth_error (l ++ [x]) i =
  if i =? length l then Some x else nth_error l i.
Proof.
  destruct (Nat.eqb_spec i (length l)) as [->|N].
  - rewrite nth_error_app2, Nat.sub_diag by lia. reflexivity.
  - destruct (Nat.lt_ge_cases i (length l)).
    + now rewrite nth_error_app1.
    + rewrite nth_error_app2 by lia. rewrite (proj2 (nth_error_None l i)) by lia.
      apply nth_error_None. simpl. lia.
Qed.

(** The weak reference inside the contents of an allocation. *)
Definition inner (a : nat) (al : alloc) : nat :=
  match stage al with Gone => 0 | _ => is_some_a a (me (body al)) end.

Definition born (a : nat) (ev : list revent) : nat := times (Built a) ev + times (Wrapped a) ev.
Definition dead (a : nat) (ev : list revent) : nat := times (Dropped a) ev + times (MovedOut a) ev.

(** Everything known about the allocation [a]. *)
Definition good_alloc (a : nat) (own ref : nat) (ev : list revent) (al : alloc) : Prop :=
  strong al = own /\ weak al = ref /\
  match stage al with
  | Building => own = 0 /\ born a ev = 0 /\ dead a ev = 0 /\ times (Aborted a) ev = 0 /\ me (body al) = Some a
  | Alive => own > 0 /\ born a ev = 1 /\ dead a ev = 0 /\ times (Aborted a) ev = 0 /\
             (times (Built a) ev > 0 -> me (body al) = Some a)
  | Dropping => own = 0 /\ born a ev = 1 /\ times (Dropped a) ev = 1 /\ times (MovedOut a) ev = 0 /\
             times (Aborted a) ev = 0 /\
             (times (Built a) ev > 0 -> me (body al) = Some a)
  | Gone => own = 0 /\ (born a ev = 1 /\ dead a ev = 1 /\ times (Aborted a) ev = 0 \/
                        born a ev = 0 /\ dead a ev = 0 /\ times (Aborted a) ev = 1)
  end.

Definition refs (a : nat) (s : world) : nat := referrers a (hands s) + total (inner a) (heap s).

Definition inv (s : world) (ev : list revent) : Prop :=
  (forall a al, nth_error (heap s) a = Some al -> good_alloc a (owners a (hands s)) (refs a s) ev al) /\
  (forall a, nth_error (heap s) a = None ->
     owners a (hands s) = 0 /\ refs a s = 0 /\
     born a ev = 0 /\ dead a ev = 0 /\ times (Aborted a) ev = 0).

Lemma times_app x a b : times x (a ++ b) = times x a + times x b.
Proof. apply total_app. Qed.

Lemma owners_app a l x : owners a (l ++ [x]) = owners a l + owns a x.
Proof. unfold owners. rewrite total_app. simpl. lia. Qed.
Lemma referrers_app a l x : referrers a (l ++ [x]) = referrers a l + refers a x.
Proof. unfold referrers. rewrite total_app. simpl. lia. Qed.

Lemma owners_alter a l i x y : nth_error l i = Some x ->
  owners a (alter i (fun _ => y) l) + owns a x = owners a l + owns a y.
Proof. intros H. exact (total_alter (owns a) i (fun _ => y) l x H). Qed.
Lemma referrers_alter a l i x y : nth_error l i = Some x ->
  referrers a (alter i (fun _ => y) l) + refers a x = referrers a l + refers a y.
Proof. intros H. exact (total_alter (refers a) i (fun _ => y) l x H). Qed.

Lemma grab_nth w h a : nth_error (grab w h) a =
  option_map (fun al => with_weak (weak al + is_some_a a w) al) (nth_error h a).
Proof.
  assert (Z : forall o : option alloc, o = option_map (fun al => with_weak (weak al + 0) al) o).
  { intros [[]|]; simpl; [|reflexivity]. unfold with_weak. simpl. now rewrite Nat.add_0_r. }
  destruct w as [b|]; simpl; [|apply Z]. rewrite alter_nth, (Nat.eqb_sym b a).
  destruct (Nat.eqb_spec a b) as [->|N]; [|apply Z].
  destruct (nth_error h b) as [[]|]; simpl; [|reflexivity]. unfold with_weak. simpl. now rewrite Nat.add_1_r.
Qed.

Lemma leave_nth w h a : nth_error (leave w h) a =
  option_map (fun al => with_weak (weak al - is_some_a a w) al) (nth_error h a).
Proof.
  assert (Z : forall o : option alloc, o = option_map (fun al => with_weak (weak al - 0) al) o).
  { intros [[]|]; simpl; [|reflexivity]. unfold with_weak. simpl. now rewrite Nat.sub_0_r. }
  destruct w as [b|]; simpl; [|apply Z]. rewrite alter_nth, (Nat.eqb_sym b a).
  destruct (Nat.eqb_spec a b) as [->|N]; [|apply Z].
  destruct (nth_error h b) as [[]|]; simpl; [|reflexivity]. unfold with_weak. simpl. now rewrite Nat.sub_1_r.
Qed.

Lemma inner_grab a w h : total (inner a) (grab w h) = total (inner a) h.
Proof. destruct w; simpl; [|reflexivity]. apply total_same. intros []. reflexivity. Qed.
Lemma inner_leave a w h : total (inner a) (leave w h) = total (inner a) h.
Proof. destruct w; simpl; [|reflexivity]. apply total_same. intros []. reflexivity. Qed.
Lemma inner_inc a b h : total (inner a) (alter b inc_strong h) = total (inner a) h.
Proof. apply total_same. intros []. reflexivity. Qed.
Lemma inner_strong a b g h : total (inner a) (alter b (fun al => with_strong (g al) al) h) = total (inner a) h.
Proof. apply total_same. intros []. reflexivity. Qed.

Lemma inv_init : inv init [].
Proof.
  split; simpl.
  - intros [|a] al H; discriminate.
  - intros a _. auto.
Qed.

(** An owning variable refers to a living object. *)
Lemma owner_alive s ev i a : inv s ev -> nth_error (hands s) i = Some (Own a) ->
  exists al, nth_error (heap s) a = Some al /\ stage al = Alive /\ strong al = owners a (hands s) /\ strong al > 0.
Proof.
  intros [I1 I2] H. pose proof (total_le (owns a) i _ _ H) as L. simpl in L. rewrite Nat.eqb_refl in L.
  fold (owners a (hands s)) in L.
  destruct (nth_error (heap s) a) as [al|] eqn:E.
  - exists al. split; [reflexivity|]. destruct (I1 a al E) as (G1 & _ & G3).
    destruct (stage al) eqn:ST; try (exfalso; lia). split; [reflexivity|]. lia.
  - destruct (I2 a E) as [Z _]. lia.
Qed.

Lemma upgrade_alive s ev w a : inv s ev -> upgrade (heap s) w = Some a ->
  w = Some a /\ exists al, nth_error (heap s) a = Some al /\ stage al = Alive.
Proof.
  intros [I1 _] H. destruct w as [b|]; simpl in H; [|discriminate].
  destruct (nth_error (heap s) b) as [al|] eqn:E; [|discriminate].
  destruct (Nat.eqb_spec (strong al) 0); [discriminate|]. injection H as <-. split; [reflexivity|].
  exists al. split; [exact E|]. destruct (I1 b al E) as (G1 & _ & G3).
  destruct (stage al); try reflexivity; exfalso; lia.
Qed.

Ltac eqbs := repeat match goal with
  | |- context [?x =? ?y] => destruct (Nat.eqb_spec x y); subst
  | H : context [?x =? ?y] |- _ => destruct (Nat.eqb_spec x y); subst
  end.

(** What is inside `self` counts among the references. *)
Lemma self_refs s ev p o a : inv s ev -> self_at s p = Some o -> is_some_a a (me o) <= refs a s.
Proof.
  intros I H. unfold refs, referrers. destruct p as [i|b|b]; simpl in H.
  - destruct (nth_error (hands s) i) as [[b|w|o'|]|] eqn:E; try discriminate.
    + destruct (owner_alive _ _ _ _ I E) as (al & EA & ST & _). rewrite EA in H. simpl in H.
      injection H as <-. pose proof (total_le (inner a) b _ _ EA) as L. unfold inner at 1 in L. rewrite ST in L. lia.
    + injection H as <-. pose proof (total_le (refers a) i _ _ E) as L. simpl in L. lia.
  - destruct (nth_error (heap s) b) as [al|] eqn:E; [|discriminate].
    destruct (stage al) eqn:ST; try discriminate. injection H as <-.
    pose proof (total_le (inner a) b _ _ E) as L. unfold inner at 1 in L. rewrite ST in L. lia.
  - destruct (nth_error (heap s) b) as [al|] eqn:E; [|discriminate].
    destruct (stage al) eqn:ST; try discriminate. injection H as <-.
    pose proof (total_le (inner a) b _ _ E) as L. unfold inner at 1 in L. rewrite ST in L. lia.
Qed.

(** The invariant speaks of the following views only. *)
Lemma inv_ext s s' ev : inv s ev ->
  (forall a, owners a (hands s') = owners a (hands s)) ->
  (forall a, refs a s' = refs a s) ->
  (forall a, match nth_error (heap s) a, nth_error (heap s') a with
             | Some x, Some y => strong y = strong x /\ weak y = weak x /\ stage y = stage x /\ me (body y) = me (body x)
             | None, None => True
             | _, _ => False
             end) -> inv s' ev.
Proof.
  intros [I1 I2] HO HR HH. split.
  - intros a y E. specialize (HH a). rewrite E in HH.
    destruct (nth_error (heap s) a) as [x|] eqn:EX; [|destruct HH].
    destruct HH as (A1 & A2 & A3 & A4). specialize (I1 a x EX). unfold good_alloc in *.
    rewrite HO, HR, A1, A2, A3, A4. exact I1.
  - intros a E. specialize (HH a). rewrite E in HH.
    destruct (nth_error (heap s) a) as [x|] eqn:EX; [destruct HH|]. rewrite HO, HR. now apply I2.
Qed.

(** Writing data into `self` changes no reference. *)
Lemma put_inv s ev p o o' : inv s ev -> self_at s p = Some o -> me o' = me o -> inv (put_at s p o') ev.
Proof.
  intros I H M. assert (HB : forall b al, nth_error (heap s) b = Some al -> body al = o ->
    inv (World (alter b (with_body o') (heap s)) (hands s)) ev).
  { intros b al E B. apply (inv_ext s); [exact I|reflexivity| |].
    - intros a. unfold refs. simpl. f_equal.
      pose proof (total_alter (inner a) b (with_body o') (heap s) al E) as T.
      unfold inner at 2 4 in T. simpl in T. rewrite B, M in T. destruct (stage al); lia.
    - intros a. simpl. rewrite alter_nth. destruct (Nat.eqb_spec b a) as [->|N].
      + rewrite E. simpl. rewrite B. auto.
      + destruct (nth_error (heap s) a); auto. }
  destruct p as [i|b|b]; simpl in *.
  - destruct (nth_error (hands s) i) as [[b|w|x|]|] eqn:E; try discriminate.
    + destruct (nth_error (heap s) b) as [al|] eqn:EA; [|discriminate]. simpl in H. injection H as <-. eauto.
    + injection H as <-. apply (inv_ext s); [exact I| | |].
      * intros a. pose proof (owners_alter a (hands s) i (Val x) (Val o') E) as T. simpl in T. simpl. lia.
      * intros a. unfold refs. simpl. pose proof (referrers_alter a (hands s) i (Val x) (Val o') E) as T.
        simpl in T. rewrite M in T. lia.
      * intros a. simpl. destruct (nth_error (heap s) a); auto.
  - destruct (nth_error (heap s) b) as [al|] eqn:EA; [|discriminate].
    destruct (stage al); try discriminate. injection H as <-. eauto.
  - destruct (nth_error (heap s) b) as [al|] eqn:EA; [|discriminate].
    destruct (stage al); try discriminate. injection H as <-. eauto.
Qed.

(** One more owning reference. *)
Lemma own_more s ev a al : inv s ev -> nth_error (heap s) a = Some al -> stage al = Alive ->
  inv (World (alter a inc_strong (heap s)) (hands s ++ [Own a])) ev.
Proof.
  intros [I1 I2] E ST. split; simpl.
  - intros b y EY. rewrite alter_nth in EY. unfold refs. simpl.
    rewrite owners_app, referrers_app, inner_inc. simpl. rewrite Nat.add_0_r. fold (refs b s).
    destruct (Nat.eqb_spec a b) as [->|N].
    + rewrite E in EY. simpl in EY. injection EY as <-. destruct (I1 b al E) as (G1 & G2 & G3).
      rewrite ST in G3. unfold good_alloc. simpl. rewrite ST, Nat.eqb_refl. split; [lia|]. split; [exact G2|].
      repeat split; try apply G3; lia.
    + destruct (Nat.eqb_spec b a); [congruence|]. rewrite Nat.add_0_r. now apply I1.
  - intros b EB. rewrite alter_nth in EB. unfold refs. simpl.
    rewrite owners_app, referrers_app, inner_inc. simpl. rewrite Nat.add_0_r. fold (refs b s).
    destruct (Nat.eqb_spec a b) as [->|N]; [rewrite E in EB; discriminate|].
    destruct (Nat.eqb_spec b a); [congruence|]. rewrite Nat.add_0_r. now apply I2.
Qed.

(** One more weak reference, in a variable. *)
Lemma ref_more s ev w x : inv s ev -> (forall a, is_some_a a w <= refs a s \/ owners a (hands s) > 0) ->
  (forall a, owns a x = 0) -> (forall a, refers a x = is_some_a a w) ->
  inv (World (grab w (heap s)) (hands s ++ [x])) ev.
Proof.
  intros [I1 I2] L O R. split; simpl.
  - intros b y EY. rewrite grab_nth in EY. unfold refs. simpl.
    rewrite owners_app, referrers_app, inner_grab, O, R, Nat.add_0_r.
    destruct (nth_error (heap s) b) as [al|] eqn:E; [|discriminate]. simpl in EY. injection EY as <-.
    destruct (I1 b al E) as (G1 & G2 & G3). split; [exact G1|]. split; [simpl; unfold refs in G2; lia|]. exact G3.
  - intros b EB. rewrite grab_nth in EB. unfold refs. simpl.
    rewrite owners_app, referrers_app, inner_grab, O, R, Nat.add_0_r.
    destruct (nth_error (heap s) b) as [al|] eqn:E; [discriminate|].
    destruct (I2 b E) as (Z1 & Z2 & Z3). specialize (L b). unfold refs in *. repeat split; try lia; apply Z3.
Qed.

Section Step.
  Variable build : nat -> nat.
  Notation step := (step build).
  Notation run := (run build).

  Lemma init_lazy_inv s ev p o a s' r e : inv s ev -> self_at s p = Some o ->
    init_lazy build s p o a = Some (s', r, e) -> inv s' ev /\ e = [].
  Proof.
    intros I H E. unfold init_lazy in E. destruct (nth_error (heap s) a); [|discriminate].
    injection E as <- <- <-. split; [|reflexivity]. eapply put_inv; eauto.
  Qed.

  Lemma inv_quiet s ev : inv s ev -> inv s (ev ++ []).
  Proof. now rewrite app_nil_r. Qed.

  (** One weak reference less, from a variable. *)
  Lemma ref_less s ev i x w : inv s ev -> nth_error (hands s) i = Some x ->
    (forall a, owns a x = 0) -> (forall a, refers a x = is_some_a a w) ->
    inv (World (leave w (heap s)) (alter i (fun _ => Empty) (hands s))) ev.
  Proof.
    intros [I1 I2] H O R. split; simpl; intros b.
    - intros y EY. rewrite leave_nth in EY. unfold refs. simpl. rewrite inner_leave.
      pose proof (owners_alter b _ _ _ Empty H) as T1. pose proof (referrers_alter b _ _ _ Empty H) as T2.
      rewrite O in T1. rewrite R in T2. simpl in T1, T2.
      destruct (nth_error (heap s) b) as [al|] eqn:E; [|discriminate]. simpl in EY. injection EY as <-.
      replace (owners b (alter i (fun _ => Empty) (hands s))) with (owners b (hands s)) by lia.
      destruct (I1 b al E) as (G1 & G2 & G3). split; [exact G1|]. split; [simpl; unfold refs in G2; lia|]. exact G3.
    - intros EB. rewrite leave_nth in EB. unfold refs. simpl. rewrite inner_leave.
      pose proof (owners_alter b _ _ _ Empty H) as T1. pose proof (referrers_alter b _ _ _ Empty H) as T2.
      rewrite O in T1. rewrite R in T2. simpl in T1, T2.
      destruct (nth_error (heap s) b) as [al|] eqn:E; [discriminate|].
      destruct (I2 b E) as (Z1 & Z2 & Z3). unfold refs in *. repeat split; try lia; apply Z3.
  Qed.

  (** Allocation [a] goes to stage Gone and drops the weak reference inside. *)
  Lemma gone_inv s ev a al e : inv s ev -> nth_error (heap s) a = Some al -> strong al = 0 ->
    stage al <> Gone ->
    (forall b, b <> a -> born b (ev ++ e) = born b ev /\ dead b (ev ++ e) = dead b ev /\
                         times (Aborted b) (ev ++ e) = times (Aborted b) ev /\
                         times (Built b) (ev ++ e) = times (Built b) ev /\
                         times (Dropped b) (ev ++ e) = times (Dropped b) ev) ->
    (born a (ev ++ e) = 1 /\ dead a (ev ++ e) = 1 /\ times (Aborted a) (ev ++ e) = 0 \/
     born a (ev ++ e) = 0 /\ dead a (ev ++ e) = 0 /\ times (Aborted a) (ev ++ e) = 1) ->
    inv (World (leave (me (body al)) (alter a (with_stage Gone) (heap s))) (hands s)) (ev ++ e).
  Proof.
    intros [I1 I2] E Z NG OT SELF.
    assert (IN : forall b, total (inner b) (alter a (with_stage Gone) (heap s)) + is_some_a b (me (body al)) =
                           total (inner b) (heap s)).
    { intros b. pose proof (total_alter (inner b) a (with_stage Gone) (heap s) al E) as T.
      unfold inner at 2 4 in T. simpl in T. destruct (stage al); try lia. congruence. }
    split; simpl; intros b.
    - intros y EY. rewrite leave_nth, alter_nth in EY. unfold refs. simpl. rewrite inner_leave.
      specialize (IN b). destruct (Nat.eqb_spec a b) as [->|N].
      + rewrite E in EY. simpl in EY. injection EY as <-. destruct (I1 b al E) as (G1 & G2 & G3).
        unfold refs in *. split; [exact G1|]. simpl. split; [lia|]. split; [lia|exact SELF].
      + destruct (nth_error (heap s) b) as [ab|] eqn:EB; [|discriminate]. simpl in EY. injection EY as <-.
        destruct (I1 b ab EB) as (G1 & G2 & G3). destruct (OT b) as (O1 & O2 & O3 & O4 & O5); [congruence|].
        assert (O6 : times (MovedOut b) (ev ++ e) = times (MovedOut b) ev) by (unfold dead in O2; lia).
        unfold refs in *. split; [exact G1|]. simpl. split; [lia|]. rewrite O1, O2, O3, O4, O5, O6. exact G3.
    - intros EB. rewrite leave_nth, alter_nth in EB. unfold refs. simpl. rewrite inner_leave.
      specialize (IN b). destruct (Nat.eqb_spec a b) as [->|N]; [rewrite E in EB; discriminate|].
      destruct (nth_error (heap s) b) as [ab|] eqn:E2; [discriminate|].
      destruct (I2 b E2) as (Z1 & Z2 & Z3 & Z4 & Z5). destruct (OT b) as (O1 & O2 & O3 & _); [congruence|].
      unfold refs in *. repeat split; lia.
  Qed.

  (** Counting one more event. *)
  Lemma times_one x y ev : times x (ev ++ [y]) = times x ev + if is_event x y then 1 else 0.
  Proof. rewrite times_app. unfold times at 2. simpl. lia. Qed.

  Lemma times_two x y z ev : times x (ev ++ [y; z]) =
    times x ev + (if is_event x y then 1 else 0) + if is_event x z then 1 else 0.
  Proof. rewrite times_app. unfold times at 2. simpl. lia. Qed.

  Ltac ev_simp := unfold born, dead in *; rewrite ?times_one, ?times_two; simpl.

  (** A value is put into a new allocation, from variable [i]. *)
  Lemma fresh_nth s ev : inv s ev -> nth_error (heap s) (length (heap s)) = None.
  Proof. intros _. apply nth_error_None. lia. Qed.

  Lemma new_start_inv s ev b c : inv s ev ->
    inv (World (heap s ++ [Alloc 0 1 Building (Obj (Some (length (heap s))) b c)]) (hands s)) ev.
  Proof.
    intros [I1 I2]. split; simpl; intros a.
    - intros y EY. rewrite nth_app_last in EY. unfold refs. simpl. rewrite total_app. simpl.
      unfold inner at 2. simpl.
      destruct (Nat.eqb_spec a (length (heap s))) as [->|N].
      + injection EY as <-. destruct (I2 (length (heap s))) as (Z1 & Z2 & Z3 & Z4 & Z5); [apply nth_error_None; lia|].
        unfold refs in *. repeat split; simpl; auto; lia.
      + destruct (I1 a y EY) as (G1 & G2 & G3). unfold refs in *. split; [exact G1|]. split; [lia|exact G3].
    - intros EB. rewrite nth_app_last in EB. unfold refs. simpl. rewrite total_app. simpl.
      unfold inner at 2. simpl.
      destruct (Nat.eqb_spec a (length (heap s))) as [E0|N]; [discriminate|].
      destruct (I2 a EB) as (Z1 & Z2 & Z3). unfold refs in *. repeat split; try lia; apply Z3.
  Qed.

  Lemma new_end_inv s ev a al : inv s ev -> nth_error (heap s) a = Some al -> stage al = Building ->
    inv (World (alter a (fun al => with_stage Alive (with_strong 1 al)) (heap s)) (hands s ++ [Own a])) (ev ++ [Built a]).
  Proof.
    intros [I1 I2] E ST.
    assert (IN : forall b, total (inner b) (alter a (fun al => with_stage Alive (with_strong 1 al)) (heap s)) =
                           total (inner b) (heap s)).
    { intros b. pose proof (total_alter (inner b) a (fun al => with_stage Alive (with_strong 1 al)) (heap s) al E) as T.
      unfold inner at 2 4 in T. simpl in T. rewrite ST in T. lia. }
    split; simpl; intros b.
    - intros y EY. rewrite alter_nth in EY. unfold refs. simpl. rewrite owners_app, referrers_app, IN. simpl.
      destruct (Nat.eqb_spec a b) as [->|N].
      + rewrite E in EY. simpl in EY. injection EY as <-. destruct (I1 b al E) as (G1 & G2 & G3).
        rewrite ST in G3. destruct G3 as (G3 & G4 & G5 & G6 & G7). unfold refs in *. unfold good_alloc. simpl. ev_simp.
        rewrite Nat.eqb_refl. repeat split; try lia. intros _. exact G7.
      + destruct (Nat.eqb_spec b a); [congruence|]. destruct (I1 b y EY) as (G1 & G2 & G3). unfold refs in *.
        unfold good_alloc. ev_simp. destruct (Nat.eqb_spec b a); [congruence|]. rewrite !Nat.add_0_r.
        split; [exact G1|]. split; [lia|exact G3].
    - intros EB. rewrite alter_nth in EB. unfold refs. simpl. rewrite owners_app, referrers_app, IN. simpl.
      destruct (Nat.eqb_spec a b) as [->|N]; [rewrite E in EB; discriminate|].
      destruct (I2 b EB) as (Z1 & Z2 & Z3 & Z4 & Z5). unfold refs in *. ev_simp.
      destruct (Nat.eqb_spec b a); [congruence|]. repeat split; lia.
  Qed.

  (** One owning variable less, not the last. *)
  Lemma own_less s ev i a al n : inv s ev -> nth_error (hands s) i = Some (Own a) ->
    nth_error (heap s) a = Some al -> strong al = S (S n) ->
    inv (World (alter a (fun al => with_strong (pred (strong al)) al) (heap s)) (alter i (fun _ => Empty) (hands s))) ev.
  Proof.
    intros I H E SN. destruct (owner_alive _ _ _ _ I H) as (al' & E' & ST & _).
    assert (al' = al) by congruence. subst al'. destruct I as [I1 I2]. split; simpl; intros b.
    - intros y EY. rewrite alter_nth in EY. unfold refs. simpl. rewrite inner_strong.
      pose proof (owners_alter b _ _ _ Empty H) as T1. pose proof (referrers_alter b _ _ _ Empty H) as T2.
      simpl in T1, T2. destruct (Nat.eqb_spec a b) as [->|N].
      + rewrite E in EY. simpl in EY. injection EY as <-. destruct (I1 b al E) as (G1 & G2 & G3).
        rewrite Nat.eqb_refl in T1. rewrite ST in G3. unfold refs in *.
        unfold good_alloc. simpl. rewrite ST. repeat split; try apply G3; lia.
      + destruct (Nat.eqb_spec b a); [congruence|]. destruct (I1 b y EY) as (G1 & G2 & G3). unfold refs in *.
        replace (owners b (alter i (fun _ => Empty) (hands s))) with (owners b (hands s)) by lia.
        split; [exact G1|]. split; [lia|exact G3].
    - intros EB. rewrite alter_nth in EB. unfold refs. simpl. rewrite inner_strong.
      pose proof (owners_alter b _ _ _ Empty H) as T1. pose proof (referrers_alter b _ _ _ Empty H) as T2.
      simpl in T1, T2. destruct (Nat.eqb_spec a b) as [->|N]; [rewrite E in EB; discriminate|].
      destruct (Nat.eqb_spec b a); [congruence|].
      destruct (I2 b EB) as (Z1 & Z2 & Z3). unfold refs in *. repeat split; try lia; apply Z3.
  Qed.

  (** The last owning variable goes: Drop::drop starts. *)
  Lemma own_last s ev i a al : inv s ev -> nth_error (hands s) i = Some (Own a) ->
    nth_error (heap s) a = Some al -> strong al = 1 ->
    inv (World (alter a (fun al => with_stage Dropping (with_strong 0 al)) (heap s)) (alter i (fun _ => Empty) (hands s)))
        (ev ++ [Dropped a]).
  Proof.
    intros I H E SN. destruct (owner_alive _ _ _ _ I H) as (al' & E' & ST & _).
    assert (al' = al) by congruence. subst al'. destruct I as [I1 I2].
    assert (IN : forall b, total (inner b) (alter a (fun al => with_stage Dropping (with_strong 0 al)) (heap s)) =
                           total (inner b) (heap s)).
    { intros b. pose proof (total_alter (inner b) a (fun al => with_stage Dropping (with_strong 0 al)) (heap s) al E) as T.
      unfold inner at 2 4 in T. simpl in T. rewrite ST in T. lia. }
    split; simpl; intros b.
    - intros y EY. rewrite alter_nth in EY. unfold refs. simpl. rewrite IN.
      pose proof (owners_alter b _ _ _ Empty H) as T1. pose proof (referrers_alter b _ _ _ Empty H) as T2.
      simpl in T1, T2. destruct (Nat.eqb_spec a b) as [->|N].
      + rewrite E in EY. simpl in EY. injection EY as <-. destruct (I1 b al E) as (G1 & G2 & G3).
        rewrite Nat.eqb_refl in T1. rewrite ST in G3. destruct G3 as (G3 & G4 & G5 & G6 & G7). unfold refs in *.
        unfold good_alloc. simpl. ev_simp. rewrite Nat.eqb_refl. repeat split; try lia.
        intros X. apply G7. lia.
      + destruct (Nat.eqb_spec b a); [congruence|]. destruct (I1 b y EY) as (G1 & G2 & G3). unfold refs in *.
        replace (owners b (alter i (fun _ => Empty) (hands s))) with (owners b (hands s)) by lia.
        unfold good_alloc. ev_simp. destruct (Nat.eqb_spec b a); [congruence|]. rewrite !Nat.add_0_r.
        split; [exact G1|]. split; [lia|exact G3].
    - intros EB. rewrite alter_nth in EB. unfold refs. simpl. rewrite IN.
      pose proof (owners_alter b _ _ _ Empty H) as T1. pose proof (referrers_alter b _ _ _ Empty H) as T2.
      simpl in T1, T2. destruct (Nat.eqb_spec a b) as [->|N]; [rewrite E in EB; discriminate|].
      destruct (Nat.eqb_spec b a); [congruence|].
      destruct (I2 b EB) as (Z1 & Z2 & Z3 & Z4 & Z5). unfold refs in *. ev_simp.
      destruct (Nat.eqb_spec b a); [congruence|]. repeat split; lia.
  Qed.

  (** A value moves from a variable into a new allocation. *)
  Lemma wrap_inv s ev i o : inv s ev -> nth_error (hands s) i = Some (Val o) ->
    inv (World (heap s ++ [Alloc 1 0 Alive o]) (alter i (fun _ => Own (length (heap s))) (hands s)))
        (ev ++ [Wrapped (length (heap s))]).
  Proof.
    intros [I1 I2] H. set (c := length (heap s)).
    assert (FC : nth_error (heap s) c = None) by (apply nth_error_None; unfold c; lia).
    split; simpl; intros b.
    - intros y EY. rewrite nth_app_last in EY. fold c in EY. unfold refs. simpl. rewrite total_app. simpl.
      unfold inner at 2. simpl.
      pose proof (owners_alter b _ _ _ (Own c) H) as T1. pose proof (referrers_alter b _ _ _ (Own c) H) as T2.
      simpl in T1, T2. destruct (Nat.eqb_spec b c) as [->|N].
      + injection EY as <-. destruct (I2 c FC) as (Z1 & Z2 & Z3 & Z4 & Z5). unfold refs in *.
        unfold good_alloc. simpl. ev_simp. rewrite Nat.eqb_refl. repeat split; try lia.
      + destruct (I1 b y EY) as (G1 & G2 & G3). unfold refs in *.
        replace (owners b (alter i (fun _ => Own c) (hands s))) with (owners b (hands s)) by lia.
        unfold good_alloc. ev_simp. destruct (Nat.eqb_spec b c); [congruence|]. rewrite !Nat.add_0_r.
        split; [exact G1|]. split; [lia|exact G3].
    - intros EB. rewrite nth_app_last in EB. fold c in EB. unfold refs. simpl. rewrite total_app. simpl.
      unfold inner at 2. simpl.
      pose proof (owners_alter b _ _ _ (Own c) H) as T1. pose proof (referrers_alter b _ _ _ (Own c) H) as T2.
      simpl in T1, T2. destruct (Nat.eqb_spec b c) as [E0|N]; [discriminate|].
      destruct (I2 b EB) as (Z1 & Z2 & Z3 & Z4 & Z5). unfold refs in *. ev_simp.
      destruct (Nat.eqb_spec b c); [congruence|]. repeat split; lia.
  Qed.

  (** The contents move out of an allocation with one owner, into the variable. *)
  Lemma unwrap_inv s ev i a al : inv s ev -> nth_error (hands s) i = Some (Own a) ->
    nth_error (heap s) a = Some al -> strong al = 1 ->
    inv (World (alter a (fun al => with_stage Gone (with_strong 0 al)) (heap s)) (alter i (fun _ => Val (body al)) (hands s)))
        (ev ++ [MovedOut a]).
  Proof.
    intros I H E SN. destruct (owner_alive _ _ _ _ I H) as (al' & E' & ST & _).
    assert (al' = al) by congruence. subst al'. destruct I as [I1 I2].
    assert (IN : forall b, total (inner b) (alter a (fun al => with_stage Gone (with_strong 0 al)) (heap s)) +
                           is_some_a b (me (body al)) = total (inner b) (heap s)).
    { intros b. pose proof (total_alter (inner b) a (fun al => with_stage Gone (with_strong 0 al)) (heap s) al E) as T.
      unfold inner at 2 4 in T. simpl in T. rewrite ST in T. lia. }
    split; simpl; intros b.
    - intros y EY. rewrite alter_nth in EY. unfold refs. simpl. specialize (IN b).
      pose proof (owners_alter b _ _ _ (Val (body al)) H) as T1.
      pose proof (referrers_alter b _ _ _ (Val (body al)) H) as T2.
      simpl in T1, T2. destruct (Nat.eqb_spec a b) as [->|N].
      + rewrite E in EY. simpl in EY. injection EY as <-. destruct (I1 b al E) as (G1 & G2 & G3).
        rewrite Nat.eqb_refl in T1. rewrite ST in G3. destruct G3 as (G3 & G4 & G5 & G6 & G7). unfold refs in *.
        unfold good_alloc. simpl. ev_simp. rewrite Nat.eqb_refl. repeat split; try lia.
      + destruct (Nat.eqb_spec b a); [congruence|]. destruct (I1 b y EY) as (G1 & G2 & G3). unfold refs in *.
        replace (owners b (alter i (fun _ => Val (body al)) (hands s))) with (owners b (hands s)) by lia.
        unfold good_alloc. ev_simp. destruct (Nat.eqb_spec b a); [congruence|]. rewrite !Nat.add_0_r.
        split; [exact G1|]. split; [lia|exact G3].
    - intros EB. rewrite alter_nth in EB. unfold refs. simpl. specialize (IN b).
      pose proof (owners_alter b _ _ _ (Val (body al)) H) as T1.
      pose proof (referrers_alter b _ _ _ (Val (body al)) H) as T2.
      simpl in T1, T2. destruct (Nat.eqb_spec a b) as [->|N]; [rewrite E in EB; discriminate|].
      destruct (Nat.eqb_spec b a); [congruence|].
      destruct (I2 b EB) as (Z1 & Z2 & Z3 & Z4 & Z5). unfold refs in *. ev_simp.
      destruct (Nat.eqb_spec b a); [congruence|]. repeat split; lia.
  Qed.

  (** Appending a value to the variables and using it at once. *)
  Lemma alter_alter {A} i (g f : A -> A) l : alter i g (alter i f l) = alter i (fun x => g (f x)) l.
  Proof. revert l. induction i as [|i IH]; intros [|x l]; simpl; auto. now rewrite IH. Qed.

  Lemma alter_comm {A} i j (g f : A -> A) l : i <> j -> alter i g (alter j f l) = alter j f (alter i g l).
  Proof.
    revert j l. induction i as [|i IH]; intros [|j] [|x l] N; simpl; auto; try congruence.
    rewrite IH; auto.
  Qed.

  Lemma grab_alter_strong w a n h :
    grab w (alter a (with_strong n) h) = alter a (with_strong n) (grab w h).
  Proof.
    destruct w as [b|]; simpl; [|reflexivity]. destruct (Nat.eq_dec b a) as [->|N].
    - rewrite !alter_alter. reflexivity.
    - now rewrite alter_comm.
  Qed.

  (** make_mut on a shared object. *)
  Lemma make_clone_inv s ev i a al b n : inv s ev -> nth_error (hands s) i = Some (Own a) ->
    nth_error (heap s) a = Some al -> strong al = S (S n) ->
    inv (World (grab (me (body al)) (alter a (fun al => with_strong (pred (strong al)) al) (heap s))
                  ++ [Alloc 1 0 Alive (with_base b (body al))])
           (alter i (fun _ => Own (length (heap s))) (hands s)))
        (ev ++ [Wrapped (length (heap s))]).
  Proof.
    intros I H E SN. destruct (owner_alive _ _ _ _ I H) as (al' & E' & ST & _).
    assert (al' = al) by congruence. subst al'. set (c := length (heap s)).
    assert (FC : nth_error (heap s) c = None) by (apply nth_error_None; unfold c; lia).
    assert (LR : forall x, is_some_a x (me (body al)) <= refs x s).
    { intros x. apply (self_refs s ev (InHand i) (body al) x I). simpl. now rewrite H, E. }
    destruct I as [I1 I2].
    set (h' := grab (me (body al)) (alter a (fun al => with_strong (pred (strong al)) al) (heap s))).
    assert (LH : length h' = c).
    { unfold h'. destruct (me (body al)); simpl; rewrite ?alter_length; reflexivity. }
    assert (NH : forall x, nth_error h' x = option_map (fun y => with_weak (weak y + is_some_a x (me (body al)))
                  (if a =? x then with_strong (pred (strong y)) y else y)) (nth_error (heap s) x)).
    { intros x. unfold h'. rewrite grab_nth, alter_nth.
      destruct (Nat.eqb_spec a x); destruct (nth_error (heap s) x) as [[]|]; reflexivity. }
    assert (IN : forall x, total (inner x) h' = total (inner x) (heap s)).
    { intros x. unfold h'. now rewrite inner_grab, inner_strong. }
    clearbody h'. split; simpl; intros x.
    - intros y EY. rewrite nth_app_last, LH, NH in EY. unfold refs. simpl. rewrite total_app, IN. simpl.
      unfold inner at 2. simpl.
      pose proof (owners_alter x _ _ _ (Own c) H) as T1. pose proof (referrers_alter x _ _ _ (Own c) H) as T2.
      simpl in T1, T2. destruct (Nat.eqb_spec x c) as [->|N].
      + injection EY as <-. destruct (I2 c FC) as (Z1 & Z2 & Z3 & Z4 & Z5). specialize (LR c). unfold refs in *.
        assert (a <> c) by congruence. destruct (Nat.eqb_spec c a); [congruence|].
        unfold good_alloc. simpl. ev_simp. rewrite Nat.eqb_refl. repeat split; try lia.
      + destruct (nth_error (heap s) x) as [ax|] eqn:EX; [|discriminate]. simpl in EY. injection EY as <-.
        destruct (I1 x ax EX) as (G1 & G2 & G3). unfold refs in *.
        unfold good_alloc. destruct (Nat.eqb_spec a x) as [->|NA].
        * assert (ax = al) by congruence. subst ax. rewrite Nat.eqb_refl in T1. simpl. rewrite ST in *. ev_simp.
          destruct (Nat.eqb_spec x c); [congruence|]. rewrite !Nat.add_0_r.
          repeat split; try apply G3; lia.
        * destruct (Nat.eqb_spec x a); [congruence|]. simpl.
          replace (owners x (alter i (fun _ => Own c) (hands s))) with (owners x (hands s)) by lia.
          ev_simp. destruct (Nat.eqb_spec x c); [congruence|]. rewrite !Nat.add_0_r.
          split; [exact G1|]. split; [lia|exact G3].
    - intros EB. rewrite nth_app_last, LH, NH in EB. unfold refs. simpl. rewrite total_app, IN. simpl.
      unfold inner at 2. simpl.
      pose proof (owners_alter x _ _ _ (Own c) H) as T1. pose proof (referrers_alter x _ _ _ (Own c) H) as T2.
      simpl in T1, T2. destruct (Nat.eqb_spec x c) as [E0|N]; [discriminate|].
      destruct (nth_error (heap s) x) as [ax|] eqn:EX; [discriminate|].
      destruct (I2 x EX) as (Z1 & Z2 & Z3 & Z4 & Z5). specialize (LR x). unfold refs in *. ev_simp.
      assert (x <> a) by congruence. destruct (Nat.eqb_spec x a); [congruence|].
      destruct (Nat.eqb_spec x c); [congruence|]. repeat split; lia.
  Qed.

  Lemma step_inv s ev x s' r e : inv s ev -> step s x = Some (s', r, e) -> inv s' (ev ++ e).
  Proof.
    intros I H. destruct x as [b c|a|a|p|p|k p|b|p|i|i|a|i|i|i|i|i|i b|i b]; simpl in H.
    - injection H as <- <- <-. apply inv_quiet. now apply new_start_inv.
    - destruct (nth_error (heap s) a) as [al|] eqn:E; [|discriminate].
      destruct (stage al) eqn:ST; try discriminate. injection H as <- <- <-. eapply new_end_inv; eauto.
    - destruct (nth_error (heap s) a) as [al|] eqn:E; [|discriminate].
      destruct (stage al) eqn:ST; try discriminate. injection H as <- <- <-.
      destruct (proj1 I a al E) as (G1 & _ & G3). rewrite ST in G3. destruct G3 as (G3 & G4 & G5 & G6 & G7).
      apply gone_inv; auto; [lia|congruence| |].
      + intros b N. ev_simp. destruct (Nat.eqb_spec b a); [congruence|]. lia.
      + right. ev_simp. rewrite Nat.eqb_refl. lia.
    - destruct (self_at s p) as [o|] eqn:SO; [|discriminate].
      destruct (upgrade (heap s) (me o)) as [a|] eqn:U.
      + injection H as <- <- <-. apply inv_quiet. destruct (upgrade_alive _ _ _ _ I U) as (_ & al & E & ST).
        eapply own_more; eauto.
      + injection H as <- <- <-. now apply inv_quiet.
    - destruct (self_at s p) as [o|] eqn:SO; [|discriminate]. injection H as <- <- <-. apply inv_quiet.
      apply ref_more; auto. intros a. left. eapply self_refs; eauto.
    - destruct k; (destruct (self_at s p) as [o|] eqn:SO; [|discriminate]).
      + destruct (cache o); [injection H as <- <- <-; now apply inv_quiet|].
        destruct (upgrade (heap s) (me o)); [|injection H as <- <- <-; now apply inv_quiet].
        destruct (init_lazy_inv _ _ _ _ _ _ _ _ I SO H) as [J ->]. now apply inv_quiet.
      + destruct (upgrade (heap s) (me o)); [|injection H as <- <- <-; now apply inv_quiet].
        destruct (cache o); [injection H as <- <- <-; now apply inv_quiet|].
        destruct (init_lazy_inv _ _ _ _ _ _ _ _ I SO H) as [J ->]. now apply inv_quiet.
    - injection H as <- <- <-. apply inv_quiet.
      apply (ref_more s ev None); auto. intros a. left. simpl. lia.
    - destruct (self_at s p) as [o|] eqn:SO; [|discriminate]. injection H as <- <- <-. apply inv_quiet.
      apply ref_more; auto. intros a. left. eapply self_refs; eauto.
    - destruct (nth_error (hands s) i) as [[a|w|o|]|] eqn:E; try discriminate. injection H as <- <- <-.
      apply inv_quiet. destruct (owner_alive _ _ _ _ I E) as (al & EA & ST & _). eapply own_more; eauto.
    - destruct (nth_error (hands s) i) as [[a|w|o|]|] eqn:E; try discriminate.
      + destruct (nth_error (heap s) a) as [al|] eqn:EA; [|discriminate].
        destruct (strong al) as [|[|n]] eqn:SA; [discriminate| |].
        * injection H as <- <- <-. eapply own_last; eauto.
        * injection H as <- <- <-. apply inv_quiet.
          pose proof (own_less s ev i a al n I E EA SA) as J.
          replace (alter a (with_strong (S n)) (heap s)) with
            (alter a (fun al => with_strong (pred (strong al)) al) (heap s)); [exact J|].
          clear - EA SA. revert EA. generalize (heap s). induction a as [|a IH]; intros [|z l] EA; simpl in *; try discriminate.
          -- injection EA as ->. now rewrite SA.
          -- f_equal. auto.
      + injection H as <- <- <-. apply inv_quiet. eapply ref_less; eauto.
      + injection H as <- <- <-. apply inv_quiet. eapply ref_less; eauto.
    - destruct (nth_error (heap s) a) as [al|] eqn:E; [|discriminate].
      destruct (stage al) eqn:ST; try discriminate. injection H as <- <- <-.
      destruct (proj1 I a al E) as (G1 & _ & G3). rewrite ST in G3. destruct G3 as (G3 & G4 & G5 & G6 & G7 & G8).
      apply gone_inv; auto; [lia|congruence| |].
      + intros b N. rewrite app_nil_r. auto.
      + left. rewrite app_nil_r. unfold dead. lia.
    - destruct (nth_error (hands s) i) as [[a|w|o|]|] eqn:E; try discriminate. injection H as <- <- <-.
      apply inv_quiet. apply (ref_more s ev (Some a)); auto. intros b. simpl.
      destruct (Nat.eqb_spec b a) as [->|N]; [|lia]. right.
      destruct (owner_alive _ _ _ _ I E) as (al & EA & ST & X & Y). lia.
    - destruct (nth_error (hands s) i) as [[a|w|o|]|] eqn:E; try discriminate.
      destruct (upgrade (heap s) w) as [a|] eqn:U.
      + injection H as <- <- <-. apply inv_quiet. destruct (upgrade_alive _ _ _ _ I U) as (_ & al & EA & ST).
        eapply own_more; eauto.
      + injection H as <- <- <-. now apply inv_quiet.
    - destruct (nth_error (hands s) i) as [[a|w|o|]|] eqn:E; try discriminate. injection H as <- <- <-.
      apply inv_quiet. apply (ref_more s ev w); auto. intros a. left.
      pose proof (total_le (refers a) i _ _ E) as L. simpl in L. unfold refs, referrers. lia.
    - destruct (nth_error (hands s) i) as [[a|w|o|]|] eqn:E; try discriminate. injection H as <- <- <-.
      now apply wrap_inv.
    - destruct (nth_error (hands s) i) as [[a|w|o|]|] eqn:E; try discriminate.
      destruct (nth_error (heap s) a) as [al|] eqn:EA; [|discriminate].
      destruct (Nat.eqb_spec (strong al) 1) as [S1|N].
      + injection H as <- <- <-. now apply unwrap_inv.
      + injection H as <- <- <-. now apply inv_quiet.
    - destruct (nth_error (hands s) i) as [[a|w|o|]|] eqn:E; try discriminate.
      destruct (nth_error (heap s) a) as [al|] eqn:EA; [|discriminate].
      destruct ((strong al =? 1) && (weak al =? 0)).
      + injection H as <- <- <-. apply inv_quiet.
        pose proof (put_inv s ev (InHand i) (body al) (with_base b (body al)) I) as J. simpl in J.
        rewrite E, EA in J. now apply J.
      + injection H as <- <- <-. now apply inv_quiet.
    - destruct (nth_error (hands s) i) as [[a|w|o|]|] eqn:E; try discriminate.
      destruct (nth_error (heap s) a) as [al|] eqn:EA; [|discriminate].
      destruct (Nat.eqb_spec (strong al) 1) as [S1|N].
      + destruct (weak al =? 0).
        * injection H as <- <- <-. apply inv_quiet.
          pose proof (put_inv s ev (InHand i) (body al) (with_base b (body al)) I) as J. simpl in J.
          rewrite E, EA in J. now apply J.
        * injection H as <- <- <-.
          pose proof (unwrap_inv s ev i a al I E EA S1) as J.
          assert (HV : nth_error (alter i (fun _ => Val (body al)) (hands s)) i = Some (Val (body al))).
          { rewrite alter_nth, Nat.eqb_refl, E. reflexivity. }
          set (s1 := World (alter a (fun al => with_stage Gone (with_strong 0 al)) (heap s))
                           (alter i (fun _ => Val (body al)) (hands s))) in *.
          assert (J2 : inv (put_at s1 (InHand i) (with_base b (body al))) (ev ++ [MovedOut a])).
          { eapply put_inv; [exact J| |]; [simpl; rewrite HV; reflexivity|reflexivity]. }
          simpl in J2. rewrite HV, alter_alter in J2.
          set (s2 := World _ _) in J2.
          assert (HV2 : nth_error (hands s2) i = Some (Val (with_base b (body al)))).
          { simpl. rewrite alter_nth, Nat.eqb_refl, E. reflexivity. }
          pose proof (wrap_inv s2 _ i _ J2 HV2) as J3. simpl in J3.
          rewrite alter_alter, alter_length, <- app_assoc in J3. exact J3.
      + injection H as <- <- <-.
        destruct (owner_alive _ _ _ _ I E) as (al' & E' & _ & _ & P). assert (al' = al) by congruence. subst al'.
        destruct (strong al) as [|[|n]] eqn:SA; try lia.
        eapply make_clone_inv; eauto.
  Qed.

  Lemma run_inv l : forall s ev s' rs e, inv s ev -> run s l = Some (s', rs, e) -> inv s' (ev ++ e).
  Proof.
    induction l as [|x l IH]; simpl; intros s ev s' rs e I H.
    - injection H as <- <- <-. now apply inv_quiet.
    - destruct (step s x) as [[[s1 y] e1]|] eqn:S1; [|discriminate].
      destruct (run s1 l) as [[[s2 ys] e2]|] eqn:R; [|discriminate]. injection H as <- <- <-.
      rewrite app_assoc. eapply IH; eauto. eapply step_inv; eauto.
  Qed.

  Lemma reach_inv l s rs ev : run init l = Some (s, rs, ev) -> inv s ev.
  Proof. intros H. exact (run_inv l init [] s rs ev inv_init H). Qed.
End Step.

(** Consequences. *)
Lemma in_times x l : In x l -> 0 < times x l.
Proof.
  assert (R : is_event x x = true) by (destruct x; simpl; apply Nat.eqb_refl).
  induction l as [|y l IH]; [intros []|]. unfold times. simpl. intros [->|H].
  - rewrite R. lia.
  - specialize (IH H). unfold times in IH. lia.
Qed.

Lemma built_alloc s ev a : inv s ev -> In (Built a) ev ->
  exists al, nth_error (heap s) a = Some al /\ good_alloc a (owners a (hands s)) (refs a s) ev al /\ born a ev = 1.
Proof.
  intros [I1 I2] B. apply in_times in B. destruct (nth_error (heap s) a) as [al|] eqn:E.
  - exists al. split; [reflexivity|]. pose proof (I1 a al E) as G. split; [exact G|].
    destruct G as (_ & _ & G). unfold born in *. destruct (stage al); lia.
  - destruct (I2 a E) as (_ & _ & Z & _). unfold born in Z. lia.
Qed.

(** The reference inside an object that was built refers to it. *)
Lemma built_me s ev i a : inv s ev -> In (Built a) ev -> nth_error (hands s) i = Some (Own a) ->
  exists al, nth_error (heap s) a = Some al /\ stage al = Alive /\ strong al = owners a (hands s) /\ strong al > 0 /\
             me (body al) = Some a.
Proof.
  intros I B H. destruct (owner_alive _ _ _ _ I H) as (al & E & ST & P). exists al.
  split; [exact E|]. split; [exact ST|]. split; [apply P|]. split; [apply P|].
  destruct (proj1 I a al E) as (_ & _ & G). rewrite ST in G. apply G. now apply in_times.
Qed.

Lemma upgrade_owned s ev a : inv s ev -> upgrade (heap s) (Some a) =
  if owners a (hands s) =? 0 then None else Some a.
Proof.
  intros [I1 I2]. simpl. destruct (nth_error (heap s) a) as [al|] eqn:E.
  - destruct (I1 a al E) as (-> & _). reflexivity.
  - destruct (I2 a E) as (-> & _). reflexivity.
Qed.

Lemma dead_owners s ev a : inv s ev -> In (Dropped a) ev \/ In (MovedOut a) ev -> owners a (hands s) = 0.
Proof.
  intros [I1 I2] D.
  assert (DD : dead a ev > 0) by (unfold dead; destruct D as [D|D]; apply in_times in D; lia).
  destruct (nth_error (heap s) a) as [al|] eqn:E.
  - destruct (I1 a al E) as (G1 & _ & G). unfold dead in *. destruct (stage al); lia.
  - destruct (I2 a E) as (Z & _). exact Z.
Qed.

Lemma is_some_a_in a l i w : nth_error l i = Some (Wk w) -> is_some_a a w <= referrers a l.
Proof. intros H. exact (total_le (refers a) i l _ H). Qed.

(** Which actions move contents out. *)
Definition stays_put (x : action) : bool :=
  match x with TryUnwrap _ | MakeMut _ _ => false | _ => true end.

Lemma no_moves build l : forall s s' rs e a, forallb stays_put l = true ->
  run build s l = Some (s', rs, e) -> times (MovedOut a) e = 0.
Proof.
  induction l as [|x l IH]; simpl; intros s s' rs e a P H.
  - injection H as <- <- <-. reflexivity.
  - apply andb_prop in P. destruct P as [P1 P2].
    destruct (step build s x) as [[[s1 y] e1]|] eqn:S1; [|discriminate].
    destruct (run build s1 l) as [[[s2 ys] e2]|] eqn:R; [|discriminate]. injection H as <- <- <-.
    rewrite times_app, (IH _ _ _ _ a P2 R), Nat.add_0_r. clear IH R.
    destruct x; try discriminate; simpl in S1;
      repeat match goal with
      | H : match ?x with _ => _ end = Some _ |- _ => destruct x eqn:?; try discriminate
      | H : give _ _ _ = Some _ |- _ => unfold give in H
      | H : init_lazy _ _ _ _ _ = Some _ |- _ => unfold init_lazy in H
      | H : Some _ = Some _ |- _ => injection H as <- <- <-
      end; reflexivity.
Qed.
