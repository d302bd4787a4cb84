(** An object from scene to scene on the memory of WeakMem.v.  While it is shared it is as in
    WeakObjectModel.v.  Then its owner joins those who used it and so knows all they know;
    what they find in the fields is again a matter of loads. *)
From Coq Require Import List Bool String Arith.
From Verif Require Import ProxyTypes ArgsModel CtxModel RustAst RustSem CommonGen StructGen CodegenSpec FieldSpec FieldRun GuardCell
  ThreadSpec ThreadModel LockedModel ObjectSpec ObjectModel EndSpec SerdeModel LifeSpec LifeModel WeakMem WeakObjectModel.
From Verif Require SyncProxyModel AsyncProxyModel WeakSyncModel WeakAsyncModel.
Import ListNotations.
Open Scope list_scope.

(** Whose action it is (user code, sync.rs:179-647). *)
Definition doer (x : mact) : aid :=
  match x with MInvoke a _ _ | MUse a _ | MGo a | MStep a | MBuilt a _ | MAbandon a => a end.
(** Who has done something with which field (user code, sync.rs:179-647). *)
Definition took_part (l : list wact) : list (nat * aid) :=
  flat_map (fun x => match x with WAct i y _ _ => [(i, doer y)] | WInner _ _ j a _ _ => [(j, a)] | WTells _ _ _ _ => [] end) l.
(** What the owner knows after joining [who] (user code); it knows that the object was made
    (sync.rs:649-690). *)
Definition gathered (who : list (nat * aid)) (gs : list wfield) : list nat :=
  0 :: flat_map (fun x => match nth_error gs (fst x) with Some g => wknows g (snd x) | None => [] end) who.
(** What the owner, who knows [k], finds in a field: as [at_rest] of LifeModel.v
    (sync/fxproxy.rs:68-75, async/fxproxy.rs:84-94, sync.rs:179-197), by loads of the write
    [p] of the flag and [q] of the content.  The owner may also write (get_mut, into_inner:
    sync/fxproxy.rs:117-120, sync/fxlock.rs:18-20); would that be a data race? *)
Definition wrest (k : list nat) (p q : nat) (st : ObjectModel.store) (g : wfield) : option (val * bool) :=
  match st, g with
  | KeptLazy false, GSync m =>
      let w := m_box m in
      let b := WeakSyncModel.core w in
      match SyncProxyModel.lw b, SyncProxyModel.lu b, SyncProxyModel.lr b, load k (WeakSyncModel.flags w) p, load k (WeakSyncModel.values w) q with
      | None, None, [], Some f, Some v =>
          if SyncProxyModel.bset b && Bool.eqb (snd f) (is_some (snd v))
          then Some (VProxy false (option_map VT (snd v)), races k (WeakSyncModel.log w) true) else None
      | _, _, _, _, _ => None
      end
  | KeptLazy true, GAsync m =>
      let w := m_box m in
      let b := WeakAsyncModel.core w in
      match AsyncProxyModel.lw b, AsyncProxyModel.lr b, load k (WeakAsyncModel.flags w) p, load k (WeakAsyncModel.values w) q with
      | None, [], Some f, Some v =>
          if AsyncProxyModel.bset b && Bool.eqb (snd f) (is_some (snd v))
          then Some (VProxy true (option_map VT (snd v)), races k (WeakAsyncModel.log w) true) else None
      | _, _, _, _ => None
      end
  | KeptLocked a op, GLock b _ =>
      match b_lw (wl_core b), b_lr (wl_core b), load k (wl_values b) q with
      | None, [], Some v =>
          match (if op then Some (opt_val (snd v)) else option_map VT (snd v)) with
          | Some u => Some (VLock a u, races k (wl_log b) true)
          | None => None
          end
      | _, _, _ => None
      end
  | KeptOpen, GOpen w _ =>
      match load k [wn_value w] q with
      | Some z => Some (snd z, races k (wn_log w) true)
      | None => None
      end
  | _, _ => None
  end.
(** The accesses to the content of a field in a scene (sync/fxproxy.rs:70, async/fxproxy.rs:84-94, lock.rs). *)
Definition accesses (g : wfield) : list nat :=
  match g with
  | GSync m => map fst (WeakSyncModel.log (m_box m))
  | GAsync m => map fst (WeakAsyncModel.log (m_box m))
  | GLock b _ => map fst (wl_log b)
  | GOpen w _ => map fst (wn_log w)
  end.
(** All the fields (codegen.rs:467-529). *)
Inductive regained (k : list nat) : list part -> list wfield -> list val -> list bool -> Prop :=
| rg_nil : regained k [] [] [] []
| rg_field p ps g gs i j v r vs rs : wrest k i j (p_store p) g = Some (v, r) -> regained k ps gs vs rs ->
    regained k (p :: ps) (g :: gs) (v :: vs) (r :: rs).

Section Lives.
Variable dflt : nat.
Variable user : string -> nat.
Variable c : sctx.
Variable fs : list field.
(** As [lives] of LifeModel.v (codegen/sync.rs, codegen/plain.rs, codegen_trait.rs:221-230).
    Before it is shared again, what the owner knows is passed on to everybody, so memory
    begins anew with what was found.  The last argument: has there been a data race? *)
Inductive wlives : list val -> list scene -> list val -> bool -> Prop :=
| wv_end vs : wlives vs [] vs false
| wv_alone vs bld i l os f ms w iu rest vs' r :
    nth_error fs i = Some f -> nth_error vs i = Some w -> field_methods c f = GOk ms ->
    only_calls (offered ms) l = true ->
    impl_run bld (is_fallible c f) true dflt user ms l (fresh w 0) = Some (os, iu) -> i_guards iu = [] ->
    wlives (put vs i (fld (i_st iu))) rest vs' r -> wlives vs (Alone bld i l os :: rest) vs' r
| wv_together vs bld h ps l w t who vs1 rs rest vs' r :
    map (fun x => part_from c (fst x) (snd x)) (combine fs vs) = map Some ps ->
    weak_object_run dflt user ps l = Some (w, h, t) -> (forall i, oracle (bld i) (at_field i t)) ->
    all_over (shadow w) -> incl (took_part l) who -> regained (gathered who (w_fields w)) ps (w_fields w) vs1 rs ->
    wlives vs1 rest vs' r ->
    wlives vs (Together bld h :: rest) vs' (existsb wraced (w_fields w) || existsb (fun b => b) rs || r).
End Lives.
