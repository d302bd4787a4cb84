(** Property C18: the order of lazy reads does not matter; and property C10 for plain
    fields.  Sync fields: every schedule of MultiModel.v.  Plain fields: every program
    run by PlainGraphModel.v. *)
From Coq Require Import List Bool Arith Lia.
From Verif Require Import ProxyTypes MultiSpec MultiModel MultiOwn MultiOrder MultiTerm MultiTrap.
From Verif Require Import MultiProps GraphSpec GraphProofs PlainGraphModel PlainGraphProofs.
Import ListNotations.

(** What a field is worth follows from what was given and from the builders: there is
    at most one answer, and with acyclic builders that only read there is one. *)
Theorem C18_worth_unique : forall v0 bld f a b, means v0 bld f a -> means v0 bld f b -> a = b.
Proof. intros v0 bld f a b A B. exact (means_unique v0 bld f a A b B). Qed.
Print Assumptions C18_worth_unique.

Theorem C18_worth_exists : forall v0 bld rank f,
  (forall g, only_plain_reads (bld g)) -> (forall g, reads_below rank (rank g) (bld g)) ->
  exists o, means v0 bld f o.
Proof. intros v0 bld rank f P R. exact (means_exists v0 bld rank P R f). Qed.
Print Assumptions C18_worth_exists.

(** Sync fields.  At any moment of any schedule, whatever the threads read and in
    whatever order: a field that has a value has the one it is worth. *)
Theorem C18_sync_values : forall v0 bld ps l s ev f v,
  (forall g, only_reads (bld g)) -> Forall changes_nothing ps ->
  run (fun g _ => bld g) (start v0 ps) l = Some (s, ev) ->
  value (fields s f) = Some v -> means v0 bld f (BOk v).
Proof.
  intros v0 bld ps l s ev f v P U R V.
  destruct (good_run v0 bld P l _ _ _ R (good_start v0 bld ps U)) as (_ & (S1 & _) & _). now apply S1.
Qed.
Print Assumptions C18_sync_values.

(** So any two programs, by any numbers of threads and in any orders, agree. *)
Theorem C18_sync_order_irrelevant : forall v0 bld ps l s ev ps' l' s' ev' f v v',
  (forall g, only_reads (bld g)) -> Forall changes_nothing ps -> Forall changes_nothing ps' ->
  run (fun g _ => bld g) (start v0 ps) l = Some (s, ev) ->
  run (fun g _ => bld g) (start v0 ps') l' = Some (s', ev') ->
  value (fields s f) = Some v -> value (fields s' f) = Some v' -> v = v'.
Proof.
  intros v0 bld ps l s ev ps' l' s' ev' f v v' P U U' R R' V V'.
  assert (M : means v0 bld f (BOk v)) by (eapply (C18_sync_values v0 bld ps); eauto).
  assert (M' : means v0 bld f (BOk v')) by (eapply (C18_sync_values v0 bld ps'); eauto).
  pose proof (means_unique _ _ _ _ M _ M') as E.
  now inversion E.
Qed.
Print Assumptions C18_sync_order_irrelevant.

(** A read that returns a guard shows that value. *)
Theorem C18_sync_read : forall v0 bld ps l s ev t th f h v k,
  (forall g, only_reads (bld g)) -> Forall changes_nothing ps ->
  run (fun g _ => bld g) (start v0 ps) l = Some (s, ev) ->
  nth_error (threads s) t = Some th -> code_of th = Call f (Ret h (RGuard v)) k ->
  means v0 bld f (BOk v).
Proof.
  intros v0 bld ps l s ev t th f h v k P U R N E.
  destruct (good_run v0 bld P l _ _ _ R (good_start v0 bld ps U)) as (_ & _ & FI).
  rewrite Forall_forall in FI. destruct (FI th (nth_error_In _ _ N)) as (CF & _).
  rewrite E in CF. destruct CF as [[K _] _]. now apply K.
Qed.
Print Assumptions C18_sync_read.

(** A builder that succeeds is started at most once over the whole schedule. *)
Theorem C18_sync_builder_once : forall v0 bld ps l s ev f v,
  (forall g, only_reads (bld g)) -> Forall changes_nothing ps ->
  run (fun g _ => bld g) (start v0 ps) l = Some (s, ev) ->
  means v0 bld f (BOk v) -> starts f ev <= 1.
Proof.
  intros v0 bld ps l s ev f v P U R M.
  exact (proj2 (proj2 (once_run v0 bld P f v M l _ _ _ 0 R (good_start v0 bld ps U) (once_start v0 f ps)))).
Qed.
Print Assumptions C18_sync_builder_once.

(** A builder that fails is started again by each read: "at most once" is false
    for it. *)
Definition try_twice (f : fid) : prog :=
  PCall f (Proxy OTryRead) (fun _ => PCall f (Proxy OTryRead) (fun _ => done)).
Definition failing (f : fid) : prog := PEnd (BErr 7).

Theorem C18_failing_builder_refuted : exists bld ps l s ev,
  (forall g, only_reads (bld g)) /\ Forall changes_nothing ps /\
  run (fun g _ => bld g) (start (fun _ => None) ps) l = Some (s, ev) /\
  means (fun _ => None) bld 0 (BErr 7) /\ starts 0 ev = 2.
Proof.
  exists failing, [try_twice 0], (repeat (0, 0) 20).
  eexists. eexists.
  split; [intros g; exact I|]. split; [constructor; [repeat split|constructor]|].
  split; [vm_compute; reflexivity|]. split; [apply means_built; [reflexivity|constructor]|reflexivity].
Qed.
Print Assumptions C18_failing_builder_refuted.

(** Plain fields: with acyclic builders every program of reads ends, each read is
    answered with what the field is worth, and the fields that have a value at the
    end have the one they are worth. *)
Theorem C18_plain_values : forall v0 bld rank n p,
  (forall g, only_plain_reads (bld g)) -> (forall g, reads_below rank (rank g) (bld g)) ->
  only_plain_reads p -> reads_below rank n p ->
  exists S o ev, prun bld n v0 p = Some (S, o, ev) /\ yields v0 bld p o /\
    (forall f v, S f = Some v -> means v0 bld f (BOk v)).
Proof.
  intros v0 bld rank n p P RB OP RP.
  destruct (prun_good v0 bld rank P RB n p v0 OP RP (psound_start v0 bld)) as (S & o & e & E & Y & G).
  exists S, o, e. split; [exact E|]. split; [exact Y|]. apply G.
Qed.
Print Assumptions C18_plain_values.

(** Enough depth is enough: more changes nothing. *)
Theorem C18_plain_depth : forall bld n m S p r, n <= m -> prun bld n S p = Some r -> prun bld m S p = Some r.
Proof. intros bld n m S p r. apply prun_fuel. Qed.
Print Assumptions C18_plain_depth.

Theorem C18_plain_order_irrelevant : forall v0 bld rank n p S o ev n' p' S' o' ev' f v v',
  (forall g, only_plain_reads (bld g)) -> (forall g, reads_below rank (rank g) (bld g)) ->
  only_plain_reads p -> reads_below rank n p -> only_plain_reads p' -> reads_below rank n' p' ->
  prun bld n v0 p = Some (S, o, ev) -> prun bld n' v0 p' = Some (S', o', ev') ->
  S f = Some v -> S' f = Some v' -> v = v'.
Proof.
  intros v0 bld rank n p S o ev n' p' S' o' ev' f v v' P RB OP RP OP' RP' E E' V V'.
  destruct (C18_plain_values v0 bld rank n p P RB OP RP) as (S1 & o1 & e1 & E1 & _ & M1).
  destruct (C18_plain_values v0 bld rank n' p' P RB OP' RP') as (S2 & o2 & e2 & E2 & _ & M2).
  rewrite E in E1. inversion E1; subst. rewrite E' in E2. inversion E2; subst.
  pose proof (means_unique _ _ _ _ (M1 _ _ V) _ (M2 _ _ V')) as EQ. now inversion EQ.
Qed.
Print Assumptions C18_plain_order_irrelevant.

(** A builder that succeeds is started at most once; and a field that was given, or
    built before, is not built at all. *)
Theorem C18_plain_builder_once : forall v0 bld rank n p S o ev f,
  (forall g, only_plain_reads (bld g)) -> (forall g, reads_below rank (rank g) (bld g)) ->
  only_plain_reads p -> reads_below rank n p ->
  prun bld n v0 p = Some (S, o, ev) ->
  (v0 f <> None -> starts f ev = 0) /\
  (forall v, means v0 bld f (BOk v) -> starts f ev <= 1).
Proof.
  intros v0 bld rank n p S o ev f P RB OP RP E.
  destruct (prun_good v0 bld rank P RB n p v0 OP RP (psound_start v0 bld)) as (S1 & o1 & e1 & E1 & _ & G).
  rewrite E in E1. inversion E1; subst. destruct G as (_ & _ & _ & G4 & G5). split.
  - intros V. destruct (v0 f) as [w|] eqn:W; [|congruence]. eapply G4; eauto.
  - intros v M. exact (proj1 (G5 f v M)).
Qed.
Print Assumptions C18_plain_builder_once.

(** A plain and a sync struct with the same builders agree. *)
Theorem C18_plain_sync_agree : forall v0 bld rank n p S o ev ps l s ev' f v v',
  (forall g, only_plain_reads (bld g)) -> (forall g, reads_below rank (rank g) (bld g)) ->
  only_plain_reads p -> reads_below rank n p -> Forall changes_nothing ps ->
  prun bld n v0 p = Some (S, o, ev) ->
  run (fun g _ => bld g) (start v0 ps) l = Some (s, ev') ->
  S f = Some v -> value (fields s f) = Some v' -> v = v'.
Proof.
  intros v0 bld rank n p S o ev ps l s ev' f v v' P RB OP RP U E R V V'.
  destruct (C18_plain_values v0 bld rank n p P RB OP RP) as (S1 & o1 & e1 & E1 & _ & M1).
  rewrite E in E1. inversion E1; subst.
  assert (M2 : means v0 bld f (BOk v')).
  { eapply C18_sync_values; eauto. intros g. apply plain_reads_reads, P. }
  pose proof (means_unique _ _ _ _ (M1 _ _ V) _ M2) as EQ. now inversion EQ.
Qed.
Print Assumptions C18_plain_sync_agree.

(** Cases.  Field 0 is 10 and each further field one more than the one before;
    reading 3 then 1, or 1 then 3. *)
Definition chain (f : fid) : prog := chain_builder f 0.

Example C18_case_plain_builders :
  (forall g, only_plain_reads (chain g)) /\ (forall g, reads_below (fun f => f) g (chain g)).
Proof.
  split; intros [|g]; simpl; auto.
  - split; [exact I|]. intros [v| | | | | | |]; simpl; auto.
  - split; [intros _; lia|]. intros [v| | | | | | |]; simpl; auto; try (split; [congruence|auto]).
Qed.

Definition two_reads (a b : fid) : prog := read_drop a (fun x => read_drop b (fun y => PEnd (BOk (x + y)))).

Example C18_case_plain_orders :
  (exists S ev, prun chain 4 (fun _ => None) (two_reads 3 1) = Some (S, BOk 24, ev) /\
    map S [0; 1; 2; 3; 4] = [Some 10; Some 11; Some 12; Some 13; None] /\
    map (fun f => starts f ev) [0; 1; 2; 3; 4] = [1; 1; 1; 1; 0]) /\
  (exists S ev, prun chain 4 (fun _ => None) (two_reads 1 3) = Some (S, BOk 24, ev) /\
    map S [0; 1; 2; 3; 4] = [Some 10; Some 11; Some 12; Some 13; None] /\
    map (fun f => starts f ev) [0; 1; 2; 3; 4] = [1; 1; 1; 1; 0]).
Proof. split; do 2 eexists; (split; [vm_compute; reflexivity|split; vm_compute; reflexivity]). Qed.

Example C18_case_worth : means (fun f => if f =? 1 then Some 5 else None) chain 2 (BOk 6).
Proof.
  apply means_built; [reflexivity|]. simpl. eapply yields_read; [now apply means_given|].
  simpl. apply yields_drop. constructor.
Qed.

(** Two threads over sync fields, one after the other: the
    second finds what the first has built. *)
Example C18_case_sync :
  Forall changes_nothing [two_reads 2 0; two_reads 0 2] /\
  match run (fun g _ => chain g) (start (fun _ => None) [two_reads 2 0; two_reads 0 2])
          (repeat (0, 0) 60 ++ repeat (1, 0) 18) with
  | Some (s, ev) => map finished (threads s) = [true; true] /\
                    map (fun f => value (fields s f)) [0; 1; 2; 3] = [Some 10; Some 11; Some 12; None] /\
                    map (fun f => starts f ev) [0; 1; 2; 3] = [1; 1; 1; 0]
  | None => False
  end.
Proof.
  split; [|vm_compute; auto].
  repeat constructor; intros [v| | | | | | |]; simpl; auto; split; auto; intros _; split; auto;
    intros [w| | | | | | |]; simpl; auto.
Qed.

(** C10 for plain fields: when every builder of a set of unset fields needs the value
    of a field of the set, reading one never ends, however deep it goes (the program
    overflows its stack). *)
Theorem C10_plain_circle_never_ends : forall bld (C : fid -> Prop) v0 f n,
  (forall g, C g -> must_read C (bld g)) -> (forall g, C g -> v0 g = None) -> C f ->
  pget bld n v0 f = None.
Proof. intros bld C v0 f n MR V Cf. exact (proj1 (pget_cycle bld C MR n v0 V) f Cf). Qed.
Print Assumptions C10_plain_circle_never_ends.

(** And the same inside any program that has to read one of them. *)
Theorem C10_plain_reader_never_ends : forall bld (C : fid -> Prop) v0 p n,
  (forall g, C g -> must_read C (bld g)) -> (forall g, C g -> v0 g = None) -> must_read C p ->
  prun bld n v0 p = None.
Proof.
  intros bld C v0 p n MR V Mp.
  refine (proj1 (pcode_cycle C (pget bld n) (fun S f N => proj1 (pget_cycle bld C MR n S N) f)
           (fun S f S1 o e N => proj2 (pget_cycle bld C MR n S N) f S1 o e) p v0 V) Mp).
Qed.
Print Assumptions C10_plain_reader_never_ends.

Example C10_case_plain_circle : forall f, f < 2 -> must_read (fun g => g < 2) (mutual_builder f 0).
Proof. intros [|[|f]] H; [| |lia]; simpl; left; split; try lia; exact I. Qed.

(** An acyclic neighbour of the circle is not affected. *)
Example C10_case_plain_neighbour : exists S ev,
  prun (fun f => mutual_builder f 0) 1 (fun _ => None) (read_once 5) = Some (S, BOk 0, ev).
Proof. do 2 eexists. vm_compute. reflexivity. Qed.
