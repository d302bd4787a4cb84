(** An object shared by any number of threads or tasks: all its fields at once, and the
    builders of lazy fields, which are user code with a reference to the object
    (sync/fxproxy.rs:37-39, async/fxproxy.rs:45-47, invoke). *)
From Coq Require Import List Bool String Arith.
From Verif Require Import ProxyTypes ArgsModel CtxModel RustAst RustSem CommonGen StructGen FieldSpec FieldRun GuardCell
  ThreadSpec ThreadModel LockedModel.
From Verif Require SyncProxyModel AsyncProxyModel.
Import ListNotations.
Open Scope list_scope.

(** How a field is kept (plain.rs:40-61, sync.rs:179-197).  OnceCell and RefCell cannot be
    shared between threads. *)
Inductive store := KeptLazy (asy : bool) | KeptLocked (asy opt : bool) | KeptOpen.
Definition store_of (t : ty) : option store :=
  match t with
  | TProxy a _ => Some (KeptLazy a)
  | TT | TOpt TT => Some KeptOpen
  | _ => match lock_of t with Some (a, o) => Some (KeptLocked a o) | None => None end
  end.
Record part := mk_part {
  p_store : store;
  p_fallible : bool;
  p_methods : list mdecl;
  p_content : option nat;      (* at the beginning *)
  p_value : val                (* how it is stored *)
}.
(** codegen_trait.rs:287-315 (field_decl, field_methods). *)
Definition part_of (c : sctx) (f : field) (o : option nat) : option part :=
  match field_type c f, field_methods c f with
  | GOk t, GOk ms =>
      match store_of t, rep t o with
      | Some s, Some w => Some (mk_part s (is_fallible c f) ms o w)
      | _, _ => None
      end
  | _, _ => None
  end.

(** ** A field that is neither lazy nor locked *)
(** Shared objects offer its [&self] methods only (sync.rs:212-307, 604-646). *)
Inductive othr :=
| TIdle
| TFresh (m : mdecl) (n : nat)     (* a future nobody has polled *)
| TDoing (m : mdecl) (n : nat)
| TDone (o : obs).
Definition set_othr (f : aid -> othr) (a : aid) (x : othr) : aid -> othr := fun b => if Nat.eqb b a then x else f b.
Definition by_reference (m : mdecl) : bool := match m_self m with SRef => true | _ => false end.
Section Open.
Variable dflt : nat.
Variable user : string -> nat.
Variable p : part.
(** What the method does (sync.rs:262-307, 636-642 and their like in
    plain.rs: the branches without a lock);
    it has no builder to call. *)
Definition open_call (m : mdecl) (n : nat) (w : val) : option (obs * val) :=
  match call (fun _ => BPanic) (p_fallible p) true dflt user m n (mk_st w 0 false 0) with
  | MVal v s => match see s v with Some an => Some (ORet an, fld s) | None => None end
  | MPanic s => Some (OPanic, fld s)
  | _ => None
  end.
Definition open_step (w : val) (th : aid -> othr) (x : mact) : option (val * (aid -> othr) * list hist) :=
  match x with
  | MInvoke a k n =>
      match th a, find_method k (p_methods p) with
      | TIdle, Some m =>
          if by_reference m
          then Some (w, set_othr th a (if m_async m then TFresh m n else TDoing m n), [HCall a k n])
          else None
      | _, _ => None
      end
  | MGo a =>
      match th a with
      | TFresh m n => Some (w, set_othr th a (TDoing m n), [])
      | TDoing m n =>
          match open_call m n w with
          | Some (o, w') => Some (w', set_othr th a (TDone o), [])
          | None => None
          end
      | TDone o => Some (w, set_othr th a TIdle, [HRet a o])
      | TIdle => None
      end
  | MAbandon a =>
      match th a with TFresh _ _ => Some (w, set_othr th a TIdle, [HGone a]) | _ => None end
  | _ => None
  end.

(** ** Any field *)
Inductive fstate :=
| FSync (s : mstate (SyncProxyModel.st nat nat))
| FAsync (s : mstate (AsyncProxyModel.st nat nat))
| FLock (s : lstate)
| FOpen (w : val) (th : aid -> othr).
(** sync.rs:166-171 (new_default), 649-690 (field_value_wrap). *)
Definition part_start : fstate :=
  match p_store p with
  | KeptLazy false => FSync (mk_mstate (SyncProxyModel.init (p_content p)) (fun _ => Idle))
  | KeptLazy true => FAsync (mk_mstate (AsyncProxyModel.init (p_content p)) (fun _ => Idle))
  | KeptLocked _ _ => FLock (mk_lstate (mk_lbox (p_content p) [] None) (fun _ => LIdle))
  | KeptOpen => FOpen (p_value p) (fun _ => TIdle)
  end.
(** Code of a locked field (sync.rs:212-647) runs in steps of LockedModel.v. *)
Definition as_lact (x : mact) : option lact :=
  match x with
  | MInvoke a k n => Some (LInvoke a k n)
  | MUse a u => Some (LUse a u)
  | MGo a => Some (LGo a)
  | MAbandon a => Some (LAbandon a)
  | MStep _ | MBuilt _ _ => None
  end.
(** The methods of one field (codegen/sync.rs, codegen/plain.rs) and its container go on.
    The object is alive, whoever calls its methods keeps it (codegen.rs, rc). *)
Definition part_step (s : fstate) (x : mact) : option (fstate * list hist * list (event nat nat)) :=
  match p_store p, s with
  | KeptLazy false, FSync s =>
      match mstep _ sync_box (p_methods p) false true s x with Some (s', h, t) => Some (FSync s', h, t) | None => None end
  | KeptLazy true, FAsync s =>
      match mstep _ async_box (p_methods p) true true s x with Some (s', h, t) => Some (FAsync s', h, t) | None => None end
  | KeptLocked a o, FLock s =>
      match as_lact x with
      | Some y => match lmove a o (p_methods p) s y with Some (s', h) => Some (FLock s', h, []) | None => None end
      | None => None
      end
  | KeptOpen, FOpen w th => match open_step w th x with Some (w', th', h) => Some (FOpen w' th', h, []) | None => None end
  | _, _ => None
  end.
End Open.

(** Where activity [a] is in a field (sync.rs:212-647; async bodies: sync/impl_async.rs:36-55): is a call
    or the use of a guard in progress, or does it keep a guard? *)
Inductive place := Free | Acting | Keeps (g : guard).
Definition place_of (s : fstate) (a : aid) : place :=
  match s with
  | FSync s => match m_thr s a with Idle => Free | Keeping g => Keeps g | _ => Acting end
  | FAsync s => match m_thr s a with Idle => Free | Keeping g => Keeps g | _ => Acting end
  | FLock s => match l_thr s a with LIdle => Free | LKeeping g => Keeps g | _ => Acting end
  | FOpen _ th => match th a with TIdle => Free | _ => Acting end
  end.

(** ** The object *)
Record object := mk_object {
  o_fields : list fstate;
  (* which calls were made by code of a builder, and by which: (call, builder) *)
  o_inner : list ((nat * aid) * (nat * aid))
}.
Inductive oact :=
| OAct (i : nat) (x : mact)
(* the builder that [b] runs for field [i] calls a method of field [j] *)
| OInner (i : nat) (b : aid) (j : nat) (a : aid) (k : hkind) (n : nat).

Definition same (x y : nat * aid) : bool := Nat.eqb (fst x) (fst y) && Nat.eqb (snd x) (snd y).
Definition acting (fs : list fstate) (x : nat * aid) : bool :=
  match nth_error fs (fst x) with
  | Some s => match place_of s (snd x) with Acting => true | _ => false end
  | None => false
  end.
(** A builder waits for the call it has made. *)
Definition inside (s : object) (x : nat * aid) : bool :=
  existsb (fun e => same (snd e) x && acting (o_fields s) (fst e)) (o_inner s).
Definition forget (x : nat * aid) (l : list ((nat * aid) * (nat * aid))) : list ((nat * aid) * (nat * aid)) :=
  filter (fun e => negb (same (fst e) x)) l.
Definition replace {A} (l : list A) (i : nat) (x : A) : list A := firstn i l ++ match skipn i l with [] => [] | _ :: t => x :: t end.

Section Object.
Variable dflt : nat.
Variable user : string -> nat.
Variable ps : list part.
(** Code of the field [i] goes on (codegen/sync.rs). *)
Definition field_step (s : object) (i : nat) (x : mact) : option (list fstate * list (nat * hist) * list (nat * event nat nat)) :=
  match nth_error ps i, nth_error (o_fields s) i with
  | Some p, Some fs =>
      match part_step dflt user p fs x with
      | Some (fs', h, t) => Some (replace (o_fields s) i fs', map (pair i) h, map (pair i) t)
      | None => None
      end
  | _, _ => None
  end.
(** Does [b] run the builder of field [i] (sync/fxproxy.rs:138-163, async/fxproxy.rs:153-168)? *)
Definition building (s : object) (i : nat) (b : aid) : bool :=
  match field_step s i (MBuilt b BPanic) with Some _ => true | None => false end.
(** Builders of sync fields are [fn]s (sync/fxproxy.rs:18-42): they wait for what they call. *)
Definition free_to_call (s : object) (i : nat) (b : aid) : bool :=
  match nth_error ps i with
  | Some p => match p_store p with KeptLazy false => negb (inside s (i, b)) | _ => true end
  | None => false
  end.
(** A builder does not end, and its future is not dropped, before the calls it has made are
    over (futures are dropped from inside). *)
Definition held (s : object) (i : nat) (x : mact) : bool :=
  match x with MBuilt b _ | MAbandon b => inside s (i, b) | _ => false end.
(** One action on the object (sync.rs:179-647, sync/impl_async.rs:36-84). *)
Definition ostep (s : object) (x : oact) : option (object * list (nat * hist) * list (nat * event nat nat)) :=
  match x with
  | OAct i y =>
      if held s i y then None else
      match field_step s i y with
      | Some (fs, h, t) =>
          Some (mk_object fs match y with MInvoke a _ _ | MUse a _ => forget (i, a) (o_inner s) | _ => o_inner s end, h, t)
      | None => None
      end
  | OInner i b j a k n =>
      if building s i b && free_to_call s i b then
        match field_step s j (MInvoke a k n) with
        | Some (fs, h, t) => Some (mk_object fs (((j, a), (i, b)) :: forget (j, a) (o_inner s)), h, t)
        | None => None
        end
      else None
  end.
Fixpoint orun (s : object) (l : list oact) : option (object * list (nat * hist) * list (nat * event nat nat)) :=
  match l with
  | [] => Some (s, [], [])
  | x :: l' =>
      match ostep s x with
      | Some (s1, h1, t1) =>
          match orun s1 l' with
          | Some (s2, h2, t2) => Some (s2, h1 ++ h2, t1 ++ t2)
          | None => None
          end
      | None => None
      end
  end.
Definition ostart : object := mk_object (map part_start ps) [].
(** The object of a struct, shared by all activities (codegen/sync.rs). *)
Definition object_run (l : list oact) : option (object * list (nat * hist) * list (nat * event nat nat)) := orun ostart l.
End Object.
