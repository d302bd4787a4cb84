(** A shared object on the memory of WeakMem.v: the code is that of ObjectModel.v, only what
    loads and stores do is different.

    An activity of the object is a pair: a field, and an activity of that field.  Knowledge
    passes from one to another through the locks of the fields and by telling (program order
    in one thread, spawn, join, a channel, a lock elsewhere); what is known about one field
    is passed on together with what is known about the others. *)
From Coq Require Import List Bool String Arith.
From Verif Require Import ProxyTypes ArgsModel RustAst RustSem FieldSpec FieldRun ThreadSpec ThreadModel LockedModel ObjectModel WeakMem.
From Verif Require SyncProxyModel AsyncProxyModel WeakSyncModel WeakAsyncModel.
Import ListNotations.
Open Scope list_scope.

(** ** Lazy fields *)
(** FXProxySync (sync/fxproxy.rs) on weak memory: [i] tells which write a load gets, [j]
    where a store is put. *)
Definition wsync_box (i j : nat) (w : WeakSyncModel.wst nat nat) (y : bact) :
    option (WeakSyncModel.wst nat nat * list (event nat nat)) :=
  match y with
  | BCall a o => WeakSyncModel.wstep w (WeakSyncModel.WDo (SyncProxyModel.ACall a o) i j)
  | BStep a => WeakSyncModel.wstep w (WeakSyncModel.WDo (SyncProxyModel.AStep a) i j)
  | BBuilt a b => WeakSyncModel.wstep w (WeakSyncModel.WDo (SyncProxyModel.ABuilt a b) i j)
  | BCancel _ => None
  end.
(** FXProxyAsync (async/fxproxy.rs). *)
Definition wasync_box (i j : nat) (w : WeakAsyncModel.wst nat nat) (y : bact) :
    option (WeakAsyncModel.wst nat nat * list (event nat nat)) :=
  WeakAsyncModel.wstep w (WeakAsyncModel.WDo
    match y with
    | BCall a o => AsyncProxyModel.ACall a o
    | BStep a => AsyncProxyModel.AStep a
    | BBuilt a b => AsyncProxyModel.ABuilt a b
    | BCancel a => AsyncProxyModel.ACancel a
    end i j).
(** Events have numbers that no other field uses (sync/fxproxy.rs:68-75). *)
Definition sync_at (n : nat) (w : WeakSyncModel.wst nat nat) : WeakSyncModel.wst nat nat :=
  WeakSyncModel.mkw (WeakSyncModel.core w) (WeakSyncModel.flags w) (WeakSyncModel.values w) (WeakSyncModel.knows w)
    (WeakSyncModel.kw w) (WeakSyncModel.kr w) n (WeakSyncModel.log w) (WeakSyncModel.racy w).
(** The same (async/fxproxy.rs:82-89). *)
Definition async_at (n : nat) (w : WeakAsyncModel.wst nat nat) : WeakAsyncModel.wst nat nat :=
  WeakAsyncModel.mkw (WeakAsyncModel.core w) (WeakAsyncModel.flags w) (WeakAsyncModel.values w) (WeakAsyncModel.knows w)
    (WeakAsyncModel.kw w) (WeakAsyncModel.kr w) n (WeakAsyncModel.log w) (WeakAsyncModel.racy w).
(** [b] learns [k] (outside of sync/fxproxy.rs). *)
Definition sync_told (b : aid) (k : list nat) (w : WeakSyncModel.wst nat nat) : WeakSyncModel.wst nat nat :=
  WeakSyncModel.mkw (WeakSyncModel.core w) (WeakSyncModel.flags w) (WeakSyncModel.values w)
    (WeakSyncModel.updk (WeakSyncModel.knows w) b (k ++ WeakSyncModel.knows w b))
    (WeakSyncModel.kw w) (WeakSyncModel.kr w) (WeakSyncModel.next w) (WeakSyncModel.log w) (WeakSyncModel.racy w).
(** The same (outside of async/fxproxy.rs). *)
Definition async_told (b : aid) (k : list nat) (w : WeakAsyncModel.wst nat nat) : WeakAsyncModel.wst nat nat :=
  WeakAsyncModel.mkw (WeakAsyncModel.core w) (WeakAsyncModel.flags w) (WeakAsyncModel.values w)
    (WeakAsyncModel.updk (WeakAsyncModel.knows w) b (k ++ WeakAsyncModel.knows w b))
    (WeakAsyncModel.kw w) (WeakAsyncModel.kr w) (WeakAsyncModel.next w) (WeakAsyncModel.log w) (WeakAsyncModel.racy w).

(** ** Locked fields *)
(** FXRwLockSync, FXRwLockAsync (sync/fxlock.rs:8-22, async/fxlock.rs:8-31): [wl_core] has
    the lock, its [b_val] is not used. *)
Record wlbox := mk_wlbox {
  wl_core : lbox;
  wl_values : WeakMem.place (option nat);
  wl_knows : aid -> list nat;
  wl_kw : list nat;
  wl_kr : list nat;
  wl_log : list (nat * bool);     (* accesses to the content; true: a write *)
  wl_racy : bool
}.
(** How [a] owns the lock (sync/fxlock.rs:12). *)
Definition lown (b : lbox) (a : aid) : own :=
  if match b_lw b with Some w => Nat.eqb w a | None => false end then Exclusive
  else if existsb (Nat.eqb a) (b_lr b) then Shared else WeakMem.Free.
(** Does it write (sync.rs:541-549, 594)? *)
Definition swaps (o : lop) : bool := match o with LSwap _ => true | _ => false end.
(** One thing done with the lock, [n] being the number of the event.  Whoever gets a guard
    looks behind it at once (LockedModel.v, [YGuard]); dropping it does not look. *)
Definition wlstep (n i j : nat) (b : wlbox) (a : aid) (o : lop) : option (wlbox * option nat) :=
  match lstep (wl_core b) a o with
  | None => None
  | Some c =>
      let '(k, kw, kr) := transfer (lown (wl_core b) a) (lown c a) (wl_knows b a) (wl_kw b) (wl_kr b) in
      match o with
      | LDrop =>
          Some (mk_wlbox c (wl_values b) (WeakSyncModel.updk (wl_knows b) a k) kw kr (wl_log b) (wl_racy b), None)
      | _ =>
          match load k (wl_values b) i, match o with LSwap x => WeakMem.store k (wl_values b) j (n, x) | _ => Some (wl_values b) end with
          | Some v, Some vl =>
              Some (mk_wlbox c vl (WeakSyncModel.updk (wl_knows b) a (n :: k)) kw kr ((n, swaps o) :: wl_log b)
                      (wl_racy b || races k (wl_log b) (swaps o)), snd v)
          | _, _ => None
          end
      end
  end.
(** [b] learns [k] (outside of sync/fxlock.rs). *)
Definition lock_told (a : aid) (k : list nat) (b : wlbox) : wlbox :=
  mk_wlbox (wl_core b) (wl_values b) (WeakSyncModel.updk (wl_knows b) a (k ++ wl_knows b a)) (wl_kw b) (wl_kr b)
    (wl_log b) (wl_racy b).
(** The field of a new object (sync.rs:649-690); everybody knows it was made. *)
Definition lock_new (o : option nat) : wlbox :=
  mk_wlbox (mk_lbox o [] None) [(0, o)] (fun _ => [0]) [0] [0] [(0, true)] false.
(** The code of a locked field goes on (sync.rs:212-647): everything but the steps above is
    as in LockedModel.v. *)
Definition wlmove (asy opt : bool) (ms : list mdecl) (n i j : nat) (b : wlbox) (th : aid -> lthr) (x : lact) :
    option (wlbox * (aid -> lthr) * list hist) :=
  let rest :=
    match lmove asy opt ms (mk_lstate (wl_core b) th) x with
    | Some (s, h) => Some (b, l_thr s, h)
    | None => None
    end in
  match x with
  | LGo a =>
      match th a with
      | LDoing (LOp o k) =>
          match wlstep n i j b a o with
          | Some (b', v) => Some (b', set_lthr th a (LDoing (k v)), [])
          | None => None
          end
      | _ => rest
      end
  | _ => rest
  end.

(** ** Fields without a lock *)
(** Only [&self] methods can be called on a shared object (sync.rs:212-307, 604-646), and
    there is no cell inside: they do not write.  [wn_value]: the one write, when the object
    was made. *)
Record wopen := mk_wopen {
  wn_value : nat * val;
  wn_knows : aid -> list nat;
  wn_log : list (nat * bool);
  wn_racy : bool
}.
(** [b] learns [k] (outside of sync.rs). *)
Definition open_told (b : aid) (k : list nat) (w : wopen) : wopen :=
  mk_wopen (wn_value w) (WeakSyncModel.updk (wn_knows w) b (k ++ wn_knows w b)) (wn_log w) (wn_racy w).
(** The field of a new object (sync.rs:649-690). *)
Definition open_new (w : val) : wopen := mk_wopen (0, w) (fun _ => [0]) [(0, true)] false.
(** The code of such a field goes on (sync.rs:262-307, 636-642): calls are as in
    ObjectModel.v, reading the content is an access to memory. *)
Definition wopen_step (dflt : nat) (user : string -> nat) (p : part) (n i : nat) (w : wopen) (th : aid -> othr) (x : mact) :
    option (wopen * (aid -> othr) * list hist) :=
  let rest :=
    match open_step dflt user p (snd (wn_value w)) th x with
    | Some (_, th', h) => Some (w, th', h)
    | None => None
    end in
  match x with
  | MGo a =>
      match th a with
      | TDoing m v =>
          match load (wn_knows w a) [wn_value w] i with
          | Some z =>
              match open_call dflt user p m v (snd z) with
              | Some (o, _) =>
                  Some (mk_wopen (wn_value w) (WeakSyncModel.updk (wn_knows w) a (n :: wn_knows w a)) ((n, false) :: wn_log w)
                          (wn_racy w || races (wn_knows w a) (wn_log w) false),
                        set_othr th a (TDone o), [])
              | None => None
              end
          | None => None
          end
      | _ => rest
      end
  | _ => rest
  end.

(** ** Any field *)
(** As ObjectModel.v: sync/fxproxy.rs:68-75, async/fxproxy.rs:82-89, sync/fxlock.rs:12. *)
Inductive wfield :=
| GSync (s : mstate (WeakSyncModel.wst nat nat))
| GAsync (s : mstate (WeakAsyncModel.wst nat nat))
| GLock (b : wlbox) (th : aid -> lthr)
| GOpen (w : wopen) (th : aid -> othr).
(** sync.rs:166-171 (new_default), 649-690 (field_value_wrap). *)
Definition wpart_start (p : part) : wfield :=
  match p_store p with
  | KeptLazy false => GSync (mk_mstate (WeakSyncModel.winit (p_content p)) (fun _ => Idle))
  | KeptLazy true => GAsync (mk_mstate (WeakAsyncModel.winit (p_content p)) (fun _ => Idle))
  | KeptLocked _ _ => GLock (lock_new (p_content p)) (fun _ => LIdle)
  | KeptOpen => GOpen (open_new (p_value p)) (fun _ => TIdle)
  end.
(** The methods of one field (codegen/sync.rs, codegen/plain.rs) and its container go on. *)
Definition wpart_step (dflt : nat) (user : string -> nat) (p : part) (n i j : nat) (s : wfield) (x : mact) :
    option (wfield * list hist * list (event nat nat)) :=
  match p_store p, s with
  | KeptLazy false, GSync s =>
      match mstep _ (wsync_box i j) (p_methods p) false true (mk_mstate (sync_at n (m_box s)) (m_thr s)) x with
      | Some (s', h, t) => Some (GSync s', h, t)
      | None => None
      end
  | KeptLazy true, GAsync s =>
      match mstep _ (wasync_box i j) (p_methods p) true true (mk_mstate (async_at n (m_box s)) (m_thr s)) x with
      | Some (s', h, t) => Some (GAsync s', h, t)
      | None => None
      end
  | KeptLocked a o, GLock b th =>
      match as_lact x with
      | Some y => match wlmove a o (p_methods p) n i j b th y with Some (b', th', h) => Some (GLock b' th', h, []) | None => None end
      | None => None
      end
  | KeptOpen, GOpen w th =>
      match wopen_step dflt user p n i w th x with Some (w', th', h) => Some (GOpen w' th', h, []) | None => None end
  | _, _ => None
  end.
(** What activity [a] of the field knows (sync/fxproxy.rs:68-75, sync/fxlock.rs:12). *)
Definition wknows (s : wfield) (a : aid) : list nat :=
  match s with
  | GSync s => WeakSyncModel.knows (m_box s) a
  | GAsync s => WeakAsyncModel.knows (m_box s) a
  | GLock b _ => wl_knows b a
  | GOpen w _ => wn_knows w a
  end.
(** It learns [k] (the same lines). *)
Definition wtold (a : aid) (k : list nat) (s : wfield) : wfield :=
  match s with
  | GSync s => GSync (mk_mstate (sync_told a k (m_box s)) (m_thr s))
  | GAsync s => GAsync (mk_mstate (async_told a k (m_box s)) (m_thr s))
  | GLock b th => GLock (lock_told a k b) th
  | GOpen w th => GOpen (open_told a k w) th
  end.
(** Has there been a data race in the field (sync/fxproxy.rs:70, sync/fxlock.rs:12)? *)
Definition wraced (s : wfield) : bool :=
  match s with
  | GSync s => WeakSyncModel.racy (m_box s)
  | GAsync s => WeakAsyncModel.racy (m_box s)
  | GLock b _ => wl_racy b
  | GOpen w _ => wn_racy w
  end.
(** Where the code is and who has the lock, without the memory (codegen/sync.rs). *)
Definition bare (s : wfield) : fstate :=
  match s with
  | GSync s => FSync (mk_mstate (WeakSyncModel.core (m_box s)) (m_thr s))
  | GAsync s => FAsync (mk_mstate (WeakAsyncModel.core (m_box s)) (m_thr s))
  | GLock b th => FLock (mk_lstate (wl_core b) th)
  | GOpen w th => FOpen (snd (wn_value w)) th
  end.

(** ** The object *)
(** The struct made by codegen.rs:467-529, shared (sync.rs:649-690). *)
Record wobject := mk_wobject {
  w_fields : list wfield;
  w_next : nat;                   (* the number of the next event *)
  w_inner : list ((nat * aid) * (nat * aid))
}.
(** Where its code is (codegen/sync.rs), without the memory. *)
Definition shadow (w : wobject) : object := mk_object (map bare (w_fields w)) (w_inner w).
(** What can happen: code goes on, a builder calls a method (ObjectModel.v), or an activity
    learns what another knows (outside of codegen/sync.rs). *)
Inductive wact :=
| WAct (i : nat) (x : mact) (p q : nat)    (* [p]: which write a load gets, [q]: where a store goes *)
| WInner (i : nat) (b : aid) (j : nat) (a : aid) (k : hkind) (n : nat)
| WTells (i : nat) (a : aid) (j : nat) (b : aid).

Section Object.
Variable dflt : nat.
Variable user : string -> nat.
Variable ps : list part.
(** Code of the field [i] goes on (codegen/sync.rs). *)
Definition wfield_step (w : wobject) (i : nat) (x : mact) (p q : nat) :
    option (list wfield * list (nat * hist) * list (nat * event nat nat)) :=
  match nth_error ps i, nth_error (w_fields w) i with
  | Some pt, Some fs =>
      match wpart_step dflt user pt (w_next w) p q fs x with
      | Some (fs', h, t) => Some (replace (w_fields w) i fs', map (pair i) h, map (pair i) t)
      | None => None
      end
  | _, _ => None
  end.
(** One action on the object (sync.rs:179-647, sync/impl_async.rs:36-84); who may act is as in
    ObjectModel.v. *)
Definition wostep (w : wobject) (x : wact) : option (wobject * list (nat * hist) * list (nat * event nat nat)) :=
  match x with
  | WAct i y p q =>
      if held (shadow w) i y then None else
      match wfield_step w i y p q with
      | Some (fs, h, t) =>
          Some (mk_wobject fs (S (w_next w))
                  match y with MInvoke a _ _ | MUse a _ => forget (i, a) (w_inner w) | _ => w_inner w end, h, t)
      | None => None
      end
  | WInner i b j a k n =>
      if building dflt user ps (shadow w) i b && free_to_call ps (shadow w) i b then
        match wfield_step w j (MInvoke a k n) 0 0 with
        | Some (fs, h, t) => Some (mk_wobject fs (S (w_next w)) (((j, a), (i, b)) :: forget (j, a) (w_inner w)), h, t)
        | None => None
        end
      else None
  | WTells i a j b =>
      match nth_error (w_fields w) i, nth_error (w_fields w) j with
      | Some f, Some g => Some (mk_wobject (replace (w_fields w) j (wtold b (wknows f a) g)) (w_next w) (w_inner w), [], [])
      | _, _ => None
      end
  end.
(** A schedule (codegen/sync.rs). *)
Fixpoint worun (w : wobject) (l : list wact) : option (wobject * list (nat * hist) * list (nat * event nat nat)) :=
  match l with
  | [] => Some (w, [], [])
  | x :: l' =>
      match wostep w x with
      | Some (w1, h1, t1) =>
          match worun w1 l' with
          | Some (w2, h2, t2) => Some (w2, h1 ++ h2, t1 ++ t2)
          | None => None
          end
      | None => None
      end
  end.
(** The object of a struct, shared by all activities (codegen/sync.rs). *)
Definition weak_object_run (l : list wact) : option (wobject * list (nat * hist) * list (nat * event nat nat)) :=
  worun (mk_wobject (map wpart_start ps) 1 []) l.
End Object.
(** The same schedule for ObjectModel.v (codegen/sync.rs). *)
Definition plain_acts (l : list wact) : list oact :=
  flat_map (fun x => match x with WAct i y _ _ => [OAct i y] | WInner i b j a k n => [OInner i b j a k n] | WTells _ _ _ _ => [] end) l.
