(** Property C66: one sync lazy field among others.  Any number of fields, threads and
    builders; builders call other fields (or this one).  Whatever is seen of the field
    is a history of the atomic cell of AtomicCell.v, the very one that C05 is about for
    a single field. *)
From Coq Require Import List Bool Arith Lia.
From Verif Require SyncProxyModel SyncProxyInv SyncProxyProps.
From Verif Require Import ProxyTypes MultiSpec TraceSpec AtomicCell.
From Verif Require Import MultiModel StorySpec MultiStory MultiField StoryFacts MultiProps.
Import ListNotations.

(** C66.  A thread that keeps several guards counts as several activities of the cell:
    [tag] tells whose they are. *)
Theorem C66_sync_field_is_a_cell : forall builder f v0 ps l s ev,
  (forall g n, lazily f (builder g n)) -> Forall (lazily f) ps ->
  run builder (start v0 ps) l = Some (s, ev) ->
  exists tag h, cell_history false (v0 f) h /\
    notes tag no_calls h = story builder f nobody_calls (start v0 ps) l.
Proof.
  intros builder f v0 ps l s ev B P R.
  destruct (field_run f builder B v0 ps l s ev P R) as (la & sa & dr & h & R1 & _ & N).
  exists tag, h. split; auto. exact (SyncProxyProps.C05_linearizable _ _ _ _ _ _ R1).
Qed.
Print Assumptions C66_sync_field_is_a_cell.

(** Builders succeed no more often than there was room for a value: once if the field
    starts empty, and once more for each call that empties it. *)
Theorem C66_build_budget : forall builder f v0 ps l s ev,
  (forall g n, lazily f (builder g n)) -> Forall (lazily f) ps ->
  run builder (start v0 ps) l = Some (s, ev) ->
  let seen := story builder f nobody_calls (start v0 ps) l in
  successes seen <= room (v0 f) + clears seen.
Proof.
  intros builder f v0 ps l s ev B P R.
  destruct (C66_sync_field_is_a_cell _ _ _ _ _ _ _ B P R) as (tg & h & H & N).
  cbv zeta. rewrite <- N. exact (few_successes _ _ _ tg no_calls H).
Qed.
Print Assumptions C66_build_budget.

(** A value that a call shows was there at the start, was set through a guard or was
    built: before the call returned, for this field. *)
Theorem C66_values_have_source : forall builder f v0 ps l s ev before t o r after v,
  (forall g n, lazily f (builder g n)) -> Forall (lazily f) ps ->
  run builder (start v0 ps) l = Some (s, ev) ->
  story builder f nobody_calls (start v0 ps) l = before ++ NRet t o r :: after ->
  reveals r v ->
  v0 f = Some v \/ exists x, In x before /\ brings v x.
Proof.
  intros builder f v0 ps l s ev before t o r after v B P R E.
  destruct (C66_sync_field_is_a_cell _ _ _ _ _ _ _ B P R) as (tg & h & H & N).
  rewrite <- N in E. exact (values_have_source _ _ _ _ _ _ _ _ _ _ _ H E).
Qed.
Print Assumptions C66_values_have_source.

(** An error comes from a builder that this very thread ran: no call gets an error of
    another thread, nor one of another field. *)
Theorem C66_errors_are_own : forall builder f v0 ps l s ev before t o e after,
  (forall g n, lazily f (builder g n)) -> Forall (lazily f) ps ->
  run builder (start v0 ps) l = Some (s, ev) ->
  story builder f nobody_calls (start v0 ps) l = before ++ NRet t o (RErr e) :: after ->
  In (NEnd t (BErr e)) before.
Proof.
  intros builder f v0 ps l s ev before t o e after B P R E.
  destruct (C66_sync_field_is_a_cell _ _ _ _ _ _ _ B P R) as (tg & h & H & N).
  rewrite <- N in E. exact (errors_from_builder _ _ _ _ _ _ _ _ _ _ H E).
Qed.
Print Assumptions C66_errors_are_own.

(** So does a panic. *)
Theorem C66_panics_are_own : forall builder f v0 ps l s ev before t o after,
  (forall g n, lazily f (builder g n)) -> Forall (lazily f) ps ->
  run builder (start v0 ps) l = Some (s, ev) ->
  story builder f nobody_calls (start v0 ps) l = before ++ NRet t o RPanic :: after ->
  In (NEnd t BPanic) before \/ exists e, In (NEnd t (BErr e)) before.
Proof.
  intros builder f v0 ps l s ev before t o after B P R E.
  destruct (C66_sync_field_is_a_cell _ _ _ _ _ _ _ B P R) as (tg & h & H & N).
  rewrite <- N in E. exact (panics_from_builder _ _ _ _ _ _ _ _ _ H E).
Qed.
Print Assumptions C66_panics_are_own.

(** A builder runs only in a thread that asked for the value: not for a predicate, a
    clear, a write guard or a clone, and not for calls on other fields. *)
Theorem C66_builds_on_demand : forall builder f v0 ps l s ev before t after,
  (forall g n, lazily f (builder g n)) -> Forall (lazily f) ps ->
  run builder (start v0 ps) l = Some (s, ev) ->
  story builder f nobody_calls (start v0 ps) l = before ++ NStart t :: after ->
  exists o, lazy_call o = true /\ In (NCall t o) before.
Proof.
  intros builder f v0 ps l s ev before t after B P R E.
  destruct (C66_sync_field_is_a_cell _ _ _ _ _ _ _ B P R) as (tg & h & H & N).
  rewrite <- N in E. exact (starts_are_asked_for _ _ _ _ _ _ _ _ H E).
Qed.
Print Assumptions C66_builds_on_demand.

(** When nobody has the writer bit of the field, its flag tells whether there is a
    value. *)
Theorem C66_flag_at_rest : forall builder f v0 ps l s ev,
  (forall g n, lazily f (builder g n)) -> Forall (lazily f) ps ->
  run builder (start v0 ps) l = Some (s, ev) ->
  lw (fields s f) = None ->
  flag (fields s f) = match value (fields s f) with Some _ => true | None => false end.
Proof.
  intros builder f v0 ps l s ev B P R W.
  destruct (field_run f builder B v0 ps l s ev P R) as (la & sa & dr & h & R1 & A & _).
  pose proof (SyncProxyInv.inv_run la _ _ _ (SyncProxyInv.inv_init (v0 f)) R1) as I.
  destruct (no_drain _ _ _ A W) as (_ & W' & _).
  rewrite (al_v _ _ _ A), (al_f _ _ _ A).
  rewrite (SyncProxyInv.i_f _ I W'). now destruct (SyncProxyModel.value sa).
Qed.
Print Assumptions C66_flag_at_rest.

(** As long as somebody keeps a guard of the field, in the code that runs or in code
    that waits for a builder, no step of another thread changes the value or starts a
    builder; a read guard keeps out its own thread as well. *)
Theorem C66_guards_keep_others_out : forall builder f v0 ps l s ev u thu h t m s' ev',
  (forall g n, lazily f (builder g n)) -> Forall (lazily f) ps ->
  run builder (start v0 ps) l = Some (s, ev) ->
  nth_error (threads s) u = Some thu -> h <> HNone ->
  In (f, h) (held thu) \/ (exists fr, In fr (stack thu) /\ In (f, h) (fr_held fr)) ->
  u <> t \/ h = HR ->
  step builder s (t, m) = Some (s', ev') ->
  value (fields s' f) = value (fields s f) /\ flag (fields s' f) = flag (fields s f) /\
  ~ In (BStart t f) ev'.
Proof.
  intros builder f v0 ps l s ev u thu h t m s' ev' B. apply guards_keep_out; auto.
Qed.
Print Assumptions C66_guards_keep_others_out.

(** Field 1 is built from field 0.  One thread reads it and keeps the guard for a while;
    meanwhile another one asks to empty it: it gets the writer bit and waits.  Then it
    reads. *)
Definition clear_then_read (f : fid) : prog :=
  PCall f (Proxy OClear) (fun _ => read_once f).
Definition two_threads : list prog := [read_once 1; clear_then_read 1].
Definition guard_kept : list (tid * nat) := repeat (0, 0) 31 ++ repeat (1, 0) 2.
Definition two_turns : list (tid * nat) := guard_kept ++ repeat (0, 0) 3 ++ repeat (1, 0) 31.

Lemma chain_lazily f g n : lazily f (chain_builder g n).
Proof.
  destruct g; cbn; auto. split; auto. intros [v| | | | | | |]; cbn; auto.
Qed.

Example C66_case :
  (forall g n, lazily 1 (chain_builder g n)) /\ Forall (lazily 1) two_threads /\
  match run chain_builder (start (fun _ => None) two_threads) guard_kept with
  | Some (s, _) => map held (threads s) = [[(1, HR)]; []] /\
                   fields s 1 = mkcell (Some 11) true (Some 1) None [0] /\
                   (exists r, step chain_builder s (0, 0) = Some r) /\ step chain_builder s (1, 0) = None
  | None => False
  end /\
  match run chain_builder (start (fun _ => None) two_threads) two_turns with
  | Some (s, _) => map finished (threads s) = [true; true] /\
                   fields s 1 = mkcell (Some 11) true None None []
  | None => False
  end /\
  story chain_builder 1 nobody_calls (start (fun _ => None) two_threads) two_turns =
    [NCall 0 ORead; NStart 0; NEnd 0 (BOk 11); NRet 0 ORead (RGuard 11);
     NCall 1 OClear; NRet 1 OClear (RVal (Some 11));
     NCall 1 ORead; NStart 1; NEnd 1 (BOk 11); NRet 1 ORead (RGuard 11)].
Proof.
  split; [apply chain_lazily|]. split; [|split; [|split; vm_compute; auto]].
  - repeat constructor; intros [v| | | | | | |]; cbn; auto.
  - vm_compute. split; [reflexivity|]. split; [reflexivity|]. split; [eexists; reflexivity|reflexivity].
Qed.

(** A builder that fails: the error goes to the thread that ran it, the panic to the
    thread that asked with a call that cannot tell of errors. *)
Definition failing_builder (f : fid) (_ : nat) : prog :=
  match f with
  | 0 => PEnd (BOk 10)
  | S g => read_drop g (fun v => PEnd (BErr v))
  end.
Definition try_once (f : fid) : prog := PCall f (Proxy OTryRead) (fun _ => done).

Example C66_case_errors :
  (forall g n, lazily 1 (failing_builder g n)) /\ Forall (lazily 1) [try_once 1; read_once 1] /\
  story failing_builder 1 nobody_calls (start (fun _ => None) [try_once 1; read_once 1])
      (repeat (0, 0) 27 ++ repeat (1, 0) 19) =
    [NCall 0 OTryRead; NStart 0; NEnd 0 (BErr 10); NRet 0 OTryRead (RErr 10);
     NCall 1 ORead; NStart 1; NEnd 1 (BErr 10); NRet 1 ORead RPanic].
Proof.
  split; [intros [|g] n; cbn; auto; split; auto; intros [v| | | | | | |]; cbn; auto|].
  split; [repeat constructor; intros [v| | | | | | |]; cbn; auto|].
  vm_compute. reflexivity.
Qed.
