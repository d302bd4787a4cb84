(** An object from scene to scene: what its fields store is what the methods of each scene
    work on. *)
From Coq Require Import List Bool String Arith.
From Verif Require Import ProxyTypes ArgsModel CtxModel RustAst RustSem CommonGen StructGen CodegenSpec FieldSpec FieldRun GuardCell
  ThreadSpec ThreadModel LockedModel ObjectSpec ObjectModel EndSpec SerdeModel LifeSpec.
From Verif Require SyncProxyModel AsyncProxyModel.
Import ListNotations.
Open Scope list_scope.

(** The content of a field of a given type (plain.rs:40-61, sync.rs:179-197) that stores
    [w]. *)
Fixpoint content_in (t : ty) (w : val) : option (option nat) :=
  match t, w with
  | TT, VT n => Some (Some n)
  | TOpt TT, VNone => Some None
  | TOpt TT, VSome (VT n) => Some (Some n)
  | TOnce TT, VOnce None => Some None
  | TOnce TT, VOnce (Some (VT n)) => Some (Some n)
  | TCell u, VCell w => content_in u w
  | TLock a u, VLock b w => if Bool.eqb a b then content_in u w else None
  | TProxy a _, VProxy b None => if Bool.eqb a b then Some None else None
  | TProxy a _, VProxy b (Some (VT n)) => if Bool.eqb a b then Some (Some n) else None
  | _, _ => None
  end.
(** A field that is shared with what it stores (codegen_trait.rs:287-315). *)
Definition part_from (c : sctx) (f : field) (w : val) : option part :=
  match field_type c f with
  | GOk t => match content_in t w with Some k => part_of c f k | None => None end
  | _ => None
  end.
(** What is left of a field after its users are gone: sync/fxproxy.rs:68-75,
    async/fxproxy.rs:84-94, and the locks of sync.rs:179-197.  A lock must be free, and the flag of a lazy
    container must say whether there is a value, as RustSem.v has only the value. *)
Definition at_rest (k : store) (s : fstate) : option val :=
  match k, s with
  | KeptLazy false, FSync m =>
      let b := m_box m in
      match SyncProxyModel.lw b, SyncProxyModel.lu b, SyncProxyModel.lr b with
      | None, None, [] =>
          if SyncProxyModel.bset b && Bool.eqb (SyncProxyModel.flag b) (is_some (SyncProxyModel.value b))
          then Some (VProxy false (option_map VT (SyncProxyModel.value b))) else None
      | _, _, _ => None
      end
  | KeptLazy true, FAsync m =>
      let b := m_box m in
      match AsyncProxyModel.lw b, AsyncProxyModel.lr b with
      | None, [] =>
          if AsyncProxyModel.bset b && Bool.eqb (AsyncProxyModel.flag b) (is_some (AsyncProxyModel.value b))
          then Some (VProxy true (option_map VT (AsyncProxyModel.value b))) else None
      | _, _ => None
      end
  | KeptLocked a true, FLock m =>
      match b_lw (l_box m), b_lr (l_box m) with None, [] => Some (VLock a (opt_val (b_val (l_box m)))) | _, _ => None end
  | KeptLocked a false, FLock m =>
      match b_lw (l_box m), b_lr (l_box m), b_val (l_box m) with None, [], Some n => Some (VLock a (VT n)) | _, _, _ => None end
  | KeptOpen, FOpen w _ => Some w
  | _, _ => None
  end.
(** Methods that exist (codegen_trait.rs:287-315). *)
Definition offered (ms : list mdecl) (k : hkind) : bool := is_some (find_method k ms).

Section Lives.
Variable dflt : nat.
Variable user : string -> nat.
Variable c : sctx.
Variable fs : list field.
(** The methods emitted for the fields (codegen/sync.rs, codegen/plain.rs) are called, by the
    owner of the object ([alive]: whoever calls a method keeps it), or by many while
    it is shared (Arc of user code, or of an rc struct, codegen_trait.rs:221-230).  The owner goes on when the
    others are gone. *)
Inductive lives : list val -> list scene -> list val -> Prop :=
| lv_end vs : lives vs [] vs
| lv_alone vs bld i l os f ms w iu rest vs' :
    nth_error fs i = Some f -> nth_error vs i = Some w -> field_methods c f = GOk ms ->
    only_calls (offered ms) l = true ->
    impl_run bld (is_fallible c f) true dflt user ms l (fresh w 0) = Some (os, iu) -> i_guards iu = [] ->
    lives (put vs i (fld (i_st iu))) rest vs' -> lives vs (Alone bld i l os :: rest) vs'
| lv_together vs bld h ps l s t vs1 rest vs' :
    map (fun x => part_from c (fst x) (snd x)) (combine fs vs) = map Some ps ->
    object_run dflt user ps l = Some (s, h, t) -> (forall i, oracle (bld i) (at_field i t)) ->
    all_over s -> map (fun x => at_rest (p_store (fst x)) (snd x)) (combine ps (o_fields s)) = map Some vs1 ->
    lives vs1 rest vs' -> lives vs (Together bld h :: rest) vs'.
End Lives.

(** The field stores this content as its type says (plain.rs:40-61, sync.rs:179-197). *)
Definition keeps (c : sctx) (f : field) (k : option nat) (w : val) : Prop := exists t, field_type c f = GOk t /\ rep t k = Some w.
(** The fields of an object which have methods and a builder setter
    (codegen_trait.rs:304-321), and the object when they store something else. *)
Fixpoint cell_values (fs : list field) (o : list val) : list val :=
  match fs, o with
  | f :: fs', v :: o' => if f_is_skipped f then cell_values fs' o' else v :: cell_values fs' o'
  | _, _ => []
  end.
Fixpoint with_cells (fs : list field) (o vs : list val) : list val :=
  match fs, o with
  | f :: fs', v :: o' =>
      if f_is_skipped f then v :: with_cells fs' o' vs
      else match vs with w :: vs' => w :: with_cells fs' o' vs' | [] => [] end
  | _, _ => []
  end.
