(** Property C65: one async lazy field among others.  Any number of fields, tasks and
    builders; builders call other fields (or this one); futures are dropped, tasks
    aborted.  Whatever is seen of the field is a history of the atomic cell of
    AtomicCell.v, so what holds of that cell holds of the field. *)
From Coq Require Import List Bool Arith Lia.
From Verif Require AsyncProxyModel AsyncProxyInv AsyncProxyProps.
From Verif Require Import ProxyTypes MultiSpec TraceSpec AtomicCell.
From Verif Require Import TaskSpec TaskModel StorySpec TaskStory TaskField StoryFacts TaskProps.
Import ListNotations.

(** C65.  A task that keeps several guards counts as several activities of the cell:
    [tag] tells whose they are. *)
Theorem C65_async_field_is_a_cell : forall inside builder f v0 ps l s ev,
  (forall g n, lazily f (builder g n)) -> Forall (lazily f) ps ->
  run inside builder (start v0 ps) l = Some (s, ev) ->
  exists tag h, cell_history true (v0 f) h /\
    notes tag no_calls h = story inside builder f (start v0 ps) l.
Proof.
  intros inside builder f v0 ps l s ev B P R.
  destruct (field_run inside f builder B v0 ps l s ev P R) as (la & sa & h & R1 & _ & N).
  exists tag, h. split; auto. exact (AsyncProxyProps.C14_async_linearizable _ _ _ _ _ _ R1).
Qed.
Print Assumptions C65_async_field_is_a_cell.

(** Builders succeed no more often than there was room for a value: once if the field
    starts empty, and once more for each call that empties it. *)
Theorem C65_build_budget : forall inside builder f v0 ps l s ev,
  (forall g n, lazily f (builder g n)) -> Forall (lazily f) ps ->
  run inside builder (start v0 ps) l = Some (s, ev) ->
  let seen := story inside builder f (start v0 ps) l in
  successes seen <= room (v0 f) + clears seen.
Proof.
  intros inside builder f v0 ps l s ev B P R.
  destruct (C65_async_field_is_a_cell _ _ _ _ _ _ _ _ B P R) as (tg & h & H & N).
  cbv zeta. rewrite <- N. exact (few_successes _ _ _ tg no_calls H).
Qed.
Print Assumptions C65_build_budget.

(** A value that a call shows was there at the start, was set through a guard or was
    built: before the call returned, for this field. *)
Theorem C65_values_have_source : forall inside builder f v0 ps l s ev before t o r after v,
  (forall g n, lazily f (builder g n)) -> Forall (lazily f) ps ->
  run inside builder (start v0 ps) l = Some (s, ev) ->
  story inside builder f (start v0 ps) l = before ++ NRet t o r :: after ->
  reveals r v ->
  v0 f = Some v \/ exists x, In x before /\ brings v x.
Proof.
  intros inside builder f v0 ps l s ev before t o r after v B P R E.
  destruct (C65_async_field_is_a_cell _ _ _ _ _ _ _ _ B P R) as (tg & h & H & N).
  rewrite <- N in E. exact (values_have_source _ _ _ _ _ _ _ _ _ _ _ H E).
Qed.
Print Assumptions C65_values_have_source.

(** An error comes from a builder that this very task ran: no call gets an error of
    another task, nor one of another field. *)
Theorem C65_errors_are_own : forall inside builder f v0 ps l s ev before t o e after,
  (forall g n, lazily f (builder g n)) -> Forall (lazily f) ps ->
  run inside builder (start v0 ps) l = Some (s, ev) ->
  story inside builder f (start v0 ps) l = before ++ NRet t o (RErr e) :: after ->
  In (NEnd t (BErr e)) before.
Proof.
  intros inside builder f v0 ps l s ev before t o e after B P R E.
  destruct (C65_async_field_is_a_cell _ _ _ _ _ _ _ _ B P R) as (tg & h & H & N).
  rewrite <- N in E. exact (errors_from_builder _ _ _ _ _ _ _ _ _ _ H E).
Qed.
Print Assumptions C65_errors_are_own.

(** So does a panic. *)
Theorem C65_panics_are_own : forall inside builder f v0 ps l s ev before t o after,
  (forall g n, lazily f (builder g n)) -> Forall (lazily f) ps ->
  run inside builder (start v0 ps) l = Some (s, ev) ->
  story inside builder f (start v0 ps) l = before ++ NRet t o RPanic :: after ->
  In (NEnd t BPanic) before \/ exists e, In (NEnd t (BErr e)) before.
Proof.
  intros inside builder f v0 ps l s ev before t o after B P R E.
  destruct (C65_async_field_is_a_cell _ _ _ _ _ _ _ _ B P R) as (tg & h & H & N).
  rewrite <- N in E. exact (panics_from_builder _ _ _ _ _ _ _ _ _ H E).
Qed.
Print Assumptions C65_panics_are_own.

(** A builder runs only in a task that asked for the value: not for a predicate, a
    clear, a write guard or a clone, and not for calls on other fields. *)
Theorem C65_builds_on_demand : forall inside builder f v0 ps l s ev before t after,
  (forall g n, lazily f (builder g n)) -> Forall (lazily f) ps ->
  run inside builder (start v0 ps) l = Some (s, ev) ->
  story inside builder f (start v0 ps) l = before ++ NStart t :: after ->
  exists o, lazy_call o = true /\ In (NCall t o) before.
Proof.
  intros inside builder f v0 ps l s ev before t after B P R E.
  destruct (C65_async_field_is_a_cell _ _ _ _ _ _ _ _ B P R) as (tg & h & H & N).
  rewrite <- N in E. exact (starts_are_asked_for _ _ _ _ _ _ _ _ H E).
Qed.
Print Assumptions C65_builds_on_demand.

(** When nobody has the field locked for writing, its flag tells whether there is a
    value: after every schedule, dropped builders and aborted tasks included. *)
Theorem C65_flag_at_rest : forall inside builder f v0 ps l s ev,
  (forall g n, lazily f (builder g n)) -> Forall (lazily f) ps ->
  run inside builder (start v0 ps) l = Some (s, ev) ->
  lw (fields s f) = None ->
  flag (fields s f) = match value (fields s f) with Some _ => true | None => false end.
Proof.
  intros inside builder f v0 ps l s ev B P R W.
  destruct (field_run inside f builder B v0 ps l s ev P R) as (la & sa & h & R1 & A & _).
  pose proof (AsyncProxyInv.inv_run la _ _ _ (AsyncProxyInv.inv_init (v0 f)) R1) as I.
  destruct A as [Av Af Aw _ _]. rewrite Av, Af.
  rewrite (AsyncProxyInv.i_f _ I); [destruct (AsyncProxyModel.value sa); reflexivity|].
  rewrite Aw in W. destruct (AsyncProxyModel.lw sa); [discriminate|reflexivity].
Qed.
Print Assumptions C65_flag_at_rest.

(** As long as somebody keeps a guard of the field, in the code that runs or in code
    that waits for a builder, nothing another task does (or is done to it) changes the
    value or starts a builder; a read guard keeps out its own task as well. *)
Theorem C65_guards_keep_others_out : forall inside builder f v0 ps l s ev u thu h t m s' ev',
  (forall g n, lazily f (builder g n)) -> Forall (lazily f) ps ->
  run inside builder (start v0 ps) l = Some (s, ev) ->
  nth_error (tasks s) u = Some thu -> h <> HNone ->
  In (f, h) (held thu) \/ (exists fr, In fr (stack thu) /\ In (f, h) (fr_held fr)) ->
  u <> t \/ h = HR ->
  step inside builder s (t, m) = Some (s', ev') ->
  value (fields s' f) = value (fields s f) /\ flag (fields s' f) = flag (fields s f) /\
  ~ In (TStart t f) ev'.
Proof.
  intros inside builder f v0 ps l s ev u thu h t m s' ev' B. apply guards_keep_out; auto.
Qed.
Print Assumptions C65_guards_keep_others_out.

(** Field 1 is built from field 0.  One task reads it, one empties it and then reads
    it, a third starts to read, and its future is dropped while the builder waits for
    field 0. *)
Definition clear_then_read (f : fid) : prog :=
  PCall f (Proxy OClear) (fun _ => read_once f).

Lemma chain_lazily f g n : lazily f (chain_builder g n).
Proof.
  destruct g; cbn; auto. split; auto. intros [v| | | | | | |]; cbn; auto.
Qed.

Definition three_tasks : list prog := [read_once 1; clear_then_read 1; read_once 1].
Definition three_turns : list (tid * act) :=
  repeat (2, Go 0) 16 ++ [(2, Abort)] ++ repeat (2, Go 0) 3 ++ repeat (0, Go 0) 23 ++ repeat (1, Go 0) 29.

Example C65_case :
  (forall g n, lazily 1 (chain_builder g n)) /\ Forall (lazily 1) three_tasks /\
  match run all_inside chain_builder (start (fun _ => None) three_tasks) three_turns with
  | Some (s, _) => map finished (tasks s) = [true; true; true] /\ value (fields s 1) = Some 11 /\
                   flag (fields s 1) = true /\ lw (fields s 1) = None
  | None => False
  end /\
  story all_inside chain_builder 1 (start (fun _ => None) three_tasks) three_turns =
    [NCall 2 ORead; NStart 2;
     NCall 0 ORead; NStart 0; NEnd 0 (BOk 11); NRet 0 ORead (RGuard 11);
     NCall 1 OClear; NRet 1 OClear (RVal (Some 11));
     NCall 1 ORead; NStart 1; NEnd 1 (BOk 11); NRet 1 ORead (RGuard 11)].
Proof.
  split; [apply chain_lazily|]. split; [|split; vm_compute; repeat split].
  repeat constructor; intros [v| | | | | | |]; cbn; auto.
Qed.

(** A builder that fails: the error goes to the task that ran it, the panic to the task
    that asked with a call that cannot tell of errors. *)
Definition failing_builder (f : fid) (_ : nat) : prog :=
  match f with
  | 0 => PEnd (BOk 10)
  | S g => read_drop g (fun v => PEnd (BErr v))
  end.
Definition try_once (f : fid) : prog := PCall f (Proxy OTryRead) (fun _ => done).

Example C65_case_errors :
  (forall g n, lazily 1 (failing_builder g n)) /\ Forall (lazily 1) [try_once 1; read_once 1] /\
  story all_inside failing_builder 1 (start (fun _ => None) [try_once 1; read_once 1])
      (repeat (0, Go 0) 22 ++ repeat (1, Go 0) 17) =
    [NCall 0 OTryRead; NStart 0; NEnd 0 (BErr 10); NRet 0 OTryRead (RErr 10);
     NCall 1 ORead; NStart 1; NEnd 1 (BErr 10); NRet 1 ORead RPanic].
Proof.
  split; [intros [|g] n; cbn; auto; split; auto; intros [v| | | | | | |]; cbn; auto|].
  split; [repeat constructor; intros [v| | | | | | |]; cbn; auto|].
  vm_compute. reflexivity.
Qed.

(** A task keeps the guard of field 1; another one asks to empty the field and
    waits; nothing is changed when it is aborted, either. *)
Example C65_case_guard :
  match run all_inside chain_builder (start (fun _ => None) [read_once 1; clear_then_read 1])
          (repeat (0, Go 0) 25 ++ repeat (1, Go 0) 2) with
  | Some (s, _) => map held (tasks s) = [[(1, HR)]; []] /\ value (fields s 1) = Some 11 /\
                   step all_inside chain_builder s (1, Go 0) = None /\
                   (exists r, step all_inside chain_builder s (1, Abort) = Some r) /\
                   (exists r, step all_inside chain_builder s (0, Go 0) = Some r)
  | None => False
  end.
Proof.
  vm_compute. split; [reflexivity|]. split; [reflexivity|]. split; [reflexivity|].
  split; eexists; reflexivity.
Qed.
