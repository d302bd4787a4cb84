(** Properties C26, C27, C51: structs declared with `rc`.  All statements are about every
    sequence of actions of RcModel.v, on any number of objects. *)
From Coq Require Import List Bool Arith Lia.
From Verif Require Import RcSpec RcModel RcProofs.
Import ListNotations.

(** C26.  The counts are what they should be: the strong count is the number of owning
    references, the weak count the number of weak ones, in variables and inside
    the contents of objects. *)
Theorem C26_counts : forall build l s rs ev a al,
  run build init l = Some (s, rs, ev) -> nth_error (heap s) a = Some al ->
  strong al = owners a (hands s) /\
  weak al = referrers a (hands s) +
            total (fun x => match stage x with Gone => 0 | _ => is_some_a a (me (body x)) end) (heap s).
Proof.
  intros build l s rs ev a al R E. destruct (proj1 (reach_inv build l s rs ev R) a al E) as (G1 & G2 & _).
  split; [exact G1|exact G2].
Qed.
Print Assumptions C26_counts.

(** As long as somebody owns an object that new() or build() returned, myself()
    returns another owner of it, and the strong count grows by one. *)
Theorem C26_myself : forall build l s rs ev i a,
  run build init l = Some (s, rs, ev) -> In (Built a) ev -> nth_error (hands s) i = Some (Own a) ->
  exists s', step build s (Myself (InHand i)) = Some (s', RHand (Own a), []) /\
    hands s' = hands s ++ [Own a] /\
    forall al, nth_error (heap s) a = Some al ->
      exists al', nth_error (heap s') a = Some al' /\ strong al' = S (strong al) /\
                  weak al' = weak al /\ body al' = body al.
Proof.
  intros build l s rs ev i a R B H. pose proof (reach_inv build l s rs ev R) as I.
  destruct (built_me s ev i a I B H) as (al & E & ST & SO & P & M).
  assert (U : upgrade (heap s) (me (body al)) = Some a).
  { rewrite M. simpl. rewrite E. destruct (Nat.eqb_spec (strong al) 0); [lia|reflexivity]. }
  assert (SA : self_at s (InHand i) = Some (body al)) by (simpl; now rewrite H, E).
  unfold step. rewrite SA, U.
  eexists. split; [reflexivity|]. split; [reflexivity|]. intros al2 E2. simpl.
  rewrite alter_nth, Nat.eqb_refl, E2. simpl. eexists. split; [reflexivity|]. auto.
Qed.
Print Assumptions C26_myself.

(** An object that was built is gone exactly when nobody owns it: its Drop has been
    called, or its contents have been moved out, exactly once; while it has an
    owner, neither has happened.  So the weak reference inside does not keep it. *)
Theorem C26_gone_once : forall build l s rs ev a,
  run build init l = Some (s, rs, ev) -> In (Built a) ev ->
  times (Dropped a) ev + times (MovedOut a) ev = if owners a (hands s) =? 0 then 1 else 0.
Proof.
  intros build l s rs ev a R B. pose proof (reach_inv build l s rs ev R) as I.
  destruct (built_alloc s ev a I B) as (al & E & (G1 & G2 & G3) & BO). unfold dead in G3.
  destruct (Nat.eqb_spec (owners a (hands s)) 0); destruct (stage al); lia.
Qed.
Print Assumptions C26_gone_once.

(** Without try_unwrap and make_mut: dropped exactly once, exactly when the last
    owner goes. *)
Theorem C26_dropped_once : forall build l s rs ev a,
  forallb stays_put l = true ->
  run build init l = Some (s, rs, ev) -> In (Built a) ev ->
  times (Dropped a) ev = if owners a (hands s) =? 0 then 1 else 0.
Proof.
  intros build l s rs ev a P R B. rewrite <- (C26_gone_once build l s rs ev a R B).
  rewrite (no_moves build l _ _ _ _ a P R). lia.
Qed.
Print Assumptions C26_dropped_once.

(** Once an object is gone it stays so: nobody owns it in any continuation, and no
    weak reference to it can be upgraded, wherever it is. *)
Theorem C26_never_back : forall build l s rs ev l' s' rs' ev' a,
  run build init l = Some (s, rs, ev) -> In (Dropped a) ev \/ In (MovedOut a) ev ->
  run build s l' = Some (s', rs', ev') ->
  owners a (hands s') = 0 /\ upgrade (heap s') (Some a) = None /\
  (forall i, nth_error (hands s') i = Some (Wk (Some a)) -> step build s' (Upgrade i) = Some (s', RNone, [])) /\
  (forall p o, self_at s' p = Some o -> me o = Some a -> step build s' (Myself p) = Some (s', RNone, [])).
Proof.
  intros build l s rs ev l' s' rs' ev' a R D R'.
  pose proof (run_inv build l' s ev s' rs' ev' (reach_inv build l s rs ev R) R') as I.
  assert (D' : In (Dropped a) (ev ++ ev') \/ In (MovedOut a) (ev ++ ev')).
  { destruct D; [left|right]; apply in_or_app; auto. }
  pose proof (dead_owners s' _ a I D') as Z. pose proof (upgrade_owned s' _ a I) as U. rewrite Z in U. simpl (0 =? 0) in U.
  split; [exact Z|]. split; [exact U|]. split.
  - intros i H. unfold step. rewrite H, U. reflexivity.
  - intros p o SO M. unfold step. rewrite SO, M, U. reflexivity.
Qed.
Print Assumptions C26_never_back.

(** When both counts are zero nothing refers to the allocation any more, so its
    memory can go. *)
Theorem C26_no_dangling : forall build l s rs ev a al,
  run build init l = Some (s, rs, ev) -> nth_error (heap s) a = Some al -> strong al = 0 -> weak al = 0 ->
  (forall i, nth_error (hands s) i <> Some (Own a)) /\
  (forall i, nth_error (hands s) i <> Some (Wk (Some a))) /\
  (forall p o, self_at s p = Some o -> me o <> Some a).
Proof.
  intros build l s rs ev a al R E S0 W0. pose proof (reach_inv build l s rs ev R) as I.
  destruct (proj1 I a al E) as (G1 & G2 & _). split; [|split].
  - intros i H. destruct (owner_alive _ _ _ _ I H) as (al' & E' & _ & _ & P). assert (al' = al) by congruence.
    subst. lia.
  - intros i H. pose proof (is_some_a_in a _ _ _ H) as L. simpl in L. rewrite Nat.eqb_refl in L.
    unfold refs in G2. lia.
  - intros p o SO M. pose proof (self_refs s ev p o a I SO) as L. rewrite M in L. simpl in L.
    rewrite Nat.eqb_refl in L. lia.
Qed.
Print Assumptions C26_no_dangling.

(** Case: two objects; a clone, a weak reference and myself() of the first; the first
    is then dropped while the weak reference is still there. *)
Definition plus_one (n : nat) : nat := S n.
Example C26_case :
  match run plus_one init
    [NewStart 5 None; NewEnd 0; NewStart 6 None; NewEnd 1; Myself (InHand 0); Downgrade 0; DropHand 0;
     Upgrade 3; DropHand 2; DropHand 4; DropEnd 0; Upgrade 3; MyselfDowngrade (InHand 1)] with
  | Some (s, rs, ev) =>
      ev = [Built 0; Built 1; Dropped 0] /\
      rs = [RUnit; RHand (Own 0); RUnit; RHand (Own 1); RHand (Own 0); RHand (Wk (Some 0)); RUnit;
            RHand (Own 0); RUnit; RUnit; RUnit; RNone; RHand (Wk (Some 1))] /\
      hands s = [Empty; Own 1; Empty; Wk (Some 0); Empty; Wk (Some 1)] /\
      map (fun al => (strong al, weak al)) (heap s) = [(0, 1); (1, 2)]
  | None => False
  end.
Proof. vm_compute. auto. Qed.

(** A clone of the struct (derive(Clone)) put into its own Rc: myself() is another
    object. *)
Theorem C26_clone_refuted : exists l s rs ev,
  run plus_one init l = Some (s, rs, ev) /\ nth_error (hands s) 1 = Some (Own 1) /\
  exists s', step plus_one s (Myself (InHand 1)) = Some (s', RHand (Own 0), []).
Proof.
  exists [NewStart 5 None; NewEnd 0; CloneVal (InHand 0); Wrap 1]. do 3 eexists.
  split; [vm_compute; reflexivity|]. split; [reflexivity|]. eexists. vm_compute. reflexivity.
Qed.
Print Assumptions C26_clone_refuted.

(** A value made by Default::default() (or read by serde) put into an Rc: owned, but
    myself() is None. *)
Theorem C26_default_refuted : exists l s rs ev,
  run plus_one init l = Some (s, rs, ev) /\ nth_error (hands s) 0 = Some (Own 0) /\
  step plus_one s (Myself (InHand 0)) = Some (s, RNone, []).
Proof.
  exists [MakeDefault 5; Wrap 0]. do 3 eexists.
  split; [vm_compute; reflexivity|]. split; reflexivity.
Qed.
Print Assumptions C26_default_refuted.

(** C27.  Reading a lazy field of an object that new() or build() returned, through an
    owning reference, never fails for want of an owner, and the builder is called
    on that object. *)
Theorem C27_owned : forall build l s rs ev i a k,
  run build init l = Some (s, rs, ev) -> In (Built a) ev -> nth_error (hands s) i = Some (Own a) ->
  exists s' al, nth_error (heap s) a = Some al /\
    step build s (Read k (InHand i)) =
      Some (s', RNum match cache (body al) with Some v => v | None => build (base (body al)) end, []).
Proof.
  intros build l s rs ev i a k R B H. pose proof (reach_inv build l s rs ev R) as I.
  destruct (built_me s ev i a I B H) as (al & E & ST & SO & P & M).
  assert (U : upgrade (heap s) (me (body al)) = Some a).
  { rewrite M. simpl. rewrite E. destruct (Nat.eqb_spec (strong al) 0); [lia|reflexivity]. }
  assert (SA : self_at s (InHand i) = Some (body al)) by (simpl; now rewrite H, E).
  unfold step. rewrite SA, U. unfold init_lazy. rewrite E.
  destruct k; destruct (cache (body al)) eqn:C; eexists; exists al; (split; [reflexivity|]); rewrite ?C; reflexivity.
Qed.
Print Assumptions C27_owned.

(** Everywhere: which object is the self-reference of, and has that an owner?  A
    sync field needs one always, a plain field only when it has no value. *)
Theorem C27_exact : forall build l s rs ev k p o,
  run build init l = Some (s, rs, ev) -> self_at s p = Some o ->
  exists s' r, step build s (Read k p) = Some (s', r, []) /\
    (r = RPanic <->
       (k = KSync \/ cache o = None) /\ (forall a, me o = Some a -> owners a (hands s) = 0)).
Proof.
  intros build l s rs ev k p o R SO. pose proof (reach_inv build l s rs ev R) as I.
  assert (U : upgrade (heap s) (me o) = None <-> forall a, me o = Some a -> owners a (hands s) = 0).
  { destruct (me o) as [a|].
    - rewrite (upgrade_owned s ev a I). destruct (Nat.eqb_spec (owners a (hands s)) 0) as [Z|N].
      + split; [|reflexivity]. intros _ b [= <-]. exact Z.
      + split; [discriminate|]. intros X. exfalso. apply N, X. reflexivity.
    - split; [discriminate|reflexivity]. }
  unfold step. rewrite SO. destruct (upgrade (heap s) (me o)) as [a|] eqn:UE.
  - destruct (upgrade_alive _ _ _ _ I UE) as (_ & al & E & _). unfold init_lazy. rewrite E.
    assert (NO : ~ (forall a, me o = Some a -> owners a (hands s) = 0)) by (intros X; apply U in X; discriminate).
    destruct k; destruct (cache o); do 2 eexists; (split; [reflexivity|]); split; try discriminate; tauto.
  - assert (YES : forall a, me o = Some a -> owners a (hands s) = 0) by now apply U.
    destruct k; [destruct (cache o) eqn:C|]; do 2 eexists; (split; [reflexivity|]); split; try discriminate; try tauto; auto.
    intros [[X|X] _]; discriminate.
Qed.
Print Assumptions C27_exact.

(** The builder is called on the object that the self-reference refers to. *)
Theorem C27_builder_owner : forall build l s rs ev k p o a al,
  run build init l = Some (s, rs, ev) -> self_at s p = Some o -> cache o = None -> me o = Some a ->
  nth_error (heap s) a = Some al -> owners a (hands s) > 0 ->
  exists s', step build s (Read k p) = Some (s', RNum (build (base (body al))), []).
Proof.
  intros build l s rs ev k p o a al R SO C M E P. pose proof (reach_inv build l s rs ev R) as I.
  assert (U : upgrade (heap s) (me o) = Some a).
  { rewrite M, (upgrade_owned s ev a I). destruct (Nat.eqb_spec (owners a (hands s)) 0); [lia|reflexivity]. }
  unfold step. rewrite SO, C, U. unfold init_lazy. rewrite E. destruct k; eexists; reflexivity.
Qed.
Print Assumptions C27_builder_owner.

(** During post_build and in Drop a lazy field without a value cannot be read, nor a
    sync field with one. *)
Theorem C27_post_build_panics : forall build l s rs ev k a o,
  run build init l = Some (s, rs, ev) -> self_at s (InBuild a) = Some o -> k = KSync \/ cache o = None ->
  step build s (Read k (InBuild a)) = Some (s, RPanic, []) /\
  step build s (Myself (InBuild a)) = Some (s, RNone, []).
Proof.
  intros build l s rs ev k a o R SO K. pose proof (reach_inv build l s rs ev R) as I.
  assert (U : upgrade (heap s) (me o) = None).
  { simpl in SO. destruct (nth_error (heap s) a) as [al|] eqn:E; [|discriminate].
    destruct (stage al) eqn:ST; try discriminate. injection SO as <-.
    destruct (proj1 I a al E) as (_ & _ & G). rewrite ST in G. destruct G as (Z & _ & _ & _ & M).
    rewrite M, (upgrade_owned s ev a I), Z. reflexivity. }
  unfold step. rewrite SO, U. split; [|reflexivity].
  destruct k; [|reflexivity]. destruct K as [K| ->]; [discriminate|reflexivity].
Qed.
Print Assumptions C27_post_build_panics.

Theorem C27_drop_panics : forall build l s rs ev k a o,
  run build init l = Some (s, rs, ev) -> In (Built a) ev ->
  self_at s (InDrop a) = Some o -> k = KSync \/ cache o = None ->
  step build s (Read k (InDrop a)) = Some (s, RPanic, []) /\
  step build s (Myself (InDrop a)) = Some (s, RNone, []).
Proof.
  intros build l s rs ev k a o R B SO K. pose proof (reach_inv build l s rs ev R) as I.
  assert (U : upgrade (heap s) (me o) = None).
  { simpl in SO. destruct (nth_error (heap s) a) as [al|] eqn:E; [|discriminate].
    destruct (stage al) eqn:ST; try discriminate. injection SO as <-.
    destruct (proj1 I a al E) as (_ & _ & G). rewrite ST in G. destruct G as (Z & _ & _ & _ & _ & M).
    rewrite (M (in_times _ _ B)), (upgrade_owned s ev a I), Z. reflexivity. }
  unfold step. rewrite SO, U. split; [|reflexivity].
  destruct k; [|reflexivity]. destruct K as [K| ->]; [discriminate|reflexivity].
Qed.
Print Assumptions C27_drop_panics.

(** Witnesses of all the suspicions: post_build; Drop; a default value, also inside
    an Rc; contents taken out with try_unwrap; a clone whose original is gone. *)
Theorem C27_suspicions_refuted : forall k,
  Forall (fun c => exists s rs ev, run plus_one init (fst c) = Some (s, rs, ev) /\
                     step plus_one s (Read k (snd c)) = Some (s, RPanic, []))
    [ ([NewStart 5 None], InBuild 0);
      ([NewStart 5 None; NewEnd 0; DropHand 0], InDrop 0);
      ([MakeDefault 5], InHand 0);
      ([MakeDefault 5; Wrap 0], InHand 0);
      ([NewStart 5 None; NewEnd 0; TryUnwrap 0], InHand 0);
      ([NewStart 5 None; NewEnd 0; CloneVal (InHand 0); DropHand 0; DropEnd 0], InHand 1) ].
Proof.
  intros k. repeat constructor; destruct k; do 3 eexists; split; vm_compute; reflexivity.
Qed.
Print Assumptions C27_suspicions_refuted.

(** And a clone whose original is alive builds its lazy field from the original: here
    the clone has been given the data 8, and the field is built from 5. *)
Theorem C27_clone_refuted : forall k, exists l s rs ev s',
  run plus_one init l = Some (s, rs, ev) /\
  option_map base (self_at s (InHand 1)) = Some 8 /\
  step plus_one s (Read k (InHand 1)) = Some (s', RNum (plus_one 5), []).
Proof.
  intros k. exists [NewStart 5 None; NewEnd 0; CloneOwn 0; MakeMut 1 8].
  destruct k; do 4 eexists; (split; [vm_compute; reflexivity|split; vm_compute; reflexivity]).
Qed.
Print Assumptions C27_clone_refuted.

(** Case: a lazy field that is set and one that is not, through an owner. *)
Example C27_case : forall k,
  match run plus_one init [NewStart 5 None; NewEnd 0; NewStart 6 (Some 1); NewEnd 1;
                           Read k (InHand 0); Read k (InHand 0); Read k (InHand 1)] with
  | Some (s, rs, ev) => skipn 4 rs = [RNum 6; RNum 6; RNum 1]
  | None => False
  end.
Proof. intros []; vm_compute; reflexivity. Qed.

(** Plain fields that have a value can be read everywhere. *)
Example C27_case_plain_set :
  match run plus_one init [NewStart 6 (Some 1); Read KPlain (InBuild 0); NewEnd 0; DropHand 0;
                           Read KPlain (InDrop 0); Read KSync (InDrop 0)] with
  | Some (s, rs, ev) => rs = [RUnit; RNum 1; RHand (Own 0); RUnit; RNum 1; RPanic]
  | None => False
  end.
Proof. vm_compute. reflexivity. Qed.

(** C51.  Rc::get_mut never succeeds on an object that new() or build() returned: its
    own weak reference is in the way. *)
Theorem C51_get_mut_never : forall build l s rs ev i a b,
  run build init l = Some (s, rs, ev) -> In (Built a) ev -> nth_error (hands s) i = Some (Own a) ->
  step build s (GetMut i b) = Some (s, RBool false, []).
Proof.
  intros build l s rs ev i a b R B H. pose proof (reach_inv build l s rs ev R) as I.
  destruct (built_me s ev i a I B H) as (al & E & ST & SO & P & M).
  assert (W : weak al > 0).
  { destruct (proj1 I a al E) as (_ & -> & _).
    pose proof (self_refs s ev (InHand i) (body al) a I) as L. simpl self_at in L. rewrite H, E in L.
    specialize (L eq_refl). rewrite M in L. simpl in L. rewrite Nat.eqb_refl in L. lia. }
  unfold step. rewrite H, E. destruct (Nat.eqb_spec (weak al) 0); [lia|]. now rewrite andb_false_r.
Qed.
Print Assumptions C51_get_mut_never.

(** Rc::make_mut always puts it somewhere else, and there myself() is not its owner any
    more: the old object if that is still owned, nothing otherwise. *)
Theorem C51_make_mut_loses_myself : forall build l s rs ev i a b,
  run build init l = Some (s, rs, ev) -> In (Built a) ev -> nth_error (hands s) i = Some (Own a) ->
  exists s' e c, step build s (MakeMut i b) = Some (s', RUnit, e) /\
    nth_error (hands s') i = Some (Own c) /\ c <> a /\
    (exists s'', step build s' (Myself (InHand i)) =
       Some (s'', if owners a (hands s) =? 1 then RNone else RHand (Own a), [])).
Proof.
  intros build l s rs ev i a b R B H. pose proof (reach_inv build l s rs ev R) as I.
  destruct (built_me s ev i a I B H) as (al & E & ST & SO & P & M).
  assert (W : weak al > 0).
  { destruct (proj1 I a al E) as (_ & -> & _).
    pose proof (self_refs s ev (InHand i) (body al) a I) as L. simpl self_at in L. rewrite H, E in L.
    specialize (L eq_refl). rewrite M in L. simpl in L. rewrite Nat.eqb_refl in L. lia. }
  assert (NC : length (heap s) <> a).
  { intros <-. rewrite (proj2 (nth_error_None (heap s) (length (heap s)))) in E by lia. discriminate. }
  assert (ST1 : exists s' e, step build s (MakeMut i b) = Some (s', RUnit, e) /\
            nth_error (hands s') i = Some (Own (length (heap s))) /\
            (exists x, nth_error (heap s') (length (heap s)) = Some x /\ me (body x) = Some a) /\
            (exists y, nth_error (heap s') a = Some y /\ strong y = pred (strong al))).
  { unfold step. rewrite H, E. destruct (Nat.eqb_spec (strong al) 1) as [S1|N1].
    - destruct (Nat.eqb_spec (weak al) 0); [lia|]. do 2 eexists. split; [reflexivity|]. simpl.
      split; [rewrite alter_nth, Nat.eqb_refl, H; reflexivity|]. split.
      + eexists. split; [rewrite nth_app_last, alter_length, Nat.eqb_refl; reflexivity|exact M].
      + eexists. split.
        * rewrite nth_app_last, alter_length. destruct (Nat.eqb_spec a (length (heap s))); [congruence|].
          rewrite alter_nth, Nat.eqb_refl, E. reflexivity.
        * simpl. lia.
    - do 2 eexists. split; [reflexivity|]. simpl. rewrite M.
      split; [rewrite alter_nth, Nat.eqb_refl, H; reflexivity|].
      assert (LH : length (grab (Some a) (alter a (fun al => with_strong (pred (strong al)) al) (heap s))) = length (heap s))
        by (simpl; now rewrite !alter_length).
      split.
      + eexists. split; [rewrite nth_app_last, LH, Nat.eqb_refl; reflexivity|exact M].
      + eexists. split.
        * rewrite nth_app_last, LH. destruct (Nat.eqb_spec a (length (heap s))); [congruence|].
          rewrite grab_nth, alter_nth, Nat.eqb_refl, E. reflexivity.
        * reflexivity. }
  destruct ST1 as (s' & e & EQ & HI & (x & EX & MX) & (y & EY & SY)).
  exists s', e, (length (heap s)). split; [exact EQ|]. split; [exact HI|]. split; [exact NC|].
  assert (SA : self_at s' (InHand i) = Some (body x)) by (simpl; now rewrite HI, EX).
  unfold step. rewrite SA, MX. simpl upgrade. rewrite EY, SY, SO.
  destruct (Nat.eqb_spec (owners a (hands s)) 1) as [O1|O1].
  - rewrite O1. simpl. eexists. reflexivity.
  - destruct (Nat.eqb_spec (pred (owners a (hands s))) 0); [lia|]. eexists. reflexivity.
Qed.
Print Assumptions C51_make_mut_loses_myself.

(** Case: a fresh object with one owner. *)
Example C51_case :
  match run plus_one init [NewStart 5 None; NewEnd 0; GetMut 0 7; MakeMut 0 7; Myself (InHand 0)] with
  | Some (s, rs, ev) => skipn 2 rs = [RBool false; RUnit; RNone] /\ ev = [Built 0; MovedOut 0; Wrapped 1]
  | None => False
  end.
Proof. vm_compute. auto. Qed.

(** Without the weak reference inside, get_mut does succeed: a wrapped default value. *)
Example C51_case_other :
  match run plus_one init [MakeDefault 5; Wrap 0; GetMut 0 7] with
  | Some (s, rs, ev) => skipn 2 rs = [RBool true]
  | None => False
  end.
Proof. vm_compute. reflexivity. Qed.
