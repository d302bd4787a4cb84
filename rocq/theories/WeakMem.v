(** Memory that is not sequentially consistent, for the two lazy containers.

    What [value] and [is_set] of sync/fxproxy.rs:68-75 and async/fxproxy.rs:82-89 hold is
    a list of writes in the order the hardware settled on.  Who reads may get any write
    that is not hidden by a later one the reader knows of; who writes may be put anywhere
    after the writes it knows of.  Knowledge comes from one's own accesses, from the lock,
    and from being told by another activity (spawn, join, a channel, another lock).

    This is the release/acquire fragment of the C11 model that Rust documents for
    std::sync::atomic, without what a reader of an atomic learns about other places from
    the write it reads: fewer promises than SeqCst (sync/fxproxy.rs:129, 151, 209) and
    Release (233) make. *)
From Coq Require Import List Bool Arith.
From Verif Require Import ProxyTypes.
Import ListNotations.

(** Events are numbered; knowledge is a list of their numbers.  sync/fxproxy.rs:68-75:
    one place in memory, oldest write first. *)
Definition place (A : Type) : Type := list (nat * A).
(** sync/fxproxy.rs:129, 151: one of the writes [l] is known. *)
Definition some_known {A} (k : list nat) (l : place A) : bool :=
  existsb (fun m => existsb (Nat.eqb (fst m)) k) l.
(** A load, as sync/fxproxy.rs:129: of the [i]th write, unless a later one is known. *)
Definition load {A} (k : list nat) (l : place A) (i : nat) : option (nat * A) :=
  if some_known k (skipn (S i) l) then None else nth_error l i.
(** A store, as sync/fxproxy.rs:151: at the [i]th position, unless the write there or a
    later one is known. *)
Definition store {A} (k : list nat) (l : place A) (i : nat) (m : nat * A) : option (place A) :=
  if some_known k (skipn i l) then None else Some (firstn i l ++ m :: skipn i l).

(** How an activity owns the RwLock around [value]: sync/fxproxy.rs:142-156, 249. *)
Inductive own := Free | Shared | Upgradable | Exclusive.
(** What a lock passes on, at sync/fxproxy.rs:142-156, 205, 215, 249: to everyone, what
    was released by exclusive owners ([kw]); to exclusive owners also what was released by
    the others ([kr]). *)
Definition transfer (o o' : own) (k kw kr : list nat) : list nat * list nat * list nat :=
  match o, o' with
  | Exclusive, Exclusive => (k, kw, kr)
  | _, Exclusive => (k ++ kw ++ kr, kw, kr)
  | Exclusive, _ => (k, k ++ kw, kr)
  | Free, (Shared | Upgradable) => (k ++ kw, kw, kr)
  | (Shared | Upgradable), Free => (k, kw, k ++ kr)
  | _, _ => (k, kw, kr)
  end.
(** What one step of the code does to memory besides the lock: sync/fxproxy.rs:143-151,
    169, 179, 209, 210, 233, 234, 252, 253. *)
Inductive touch := TNone | TLoadFlag | TStoreFlag | TLoadValue | TStoreValue | TSwapValue.
(** The same. *)
Definition loads_flag (t : touch) : bool := match t with TLoadFlag => true | _ => false end.
(** The same. *)
Definition stores_flag (t : touch) : bool := match t with TStoreFlag => true | _ => false end.
(** The same. *)
Definition loads_value (t : touch) : bool := match t with TLoadValue | TSwapValue => true | _ => false end.
(** The same. *)
Definition stores_value (t : touch) : bool := match t with TStoreValue | TSwapValue => true | _ => false end.
(** The accesses to [value] are not atomic (sync/fxproxy.rs:70): two of them race if one
    is a write and the second does not know of the first. *)
Definition races (k : list nat) (log : list (nat * bool)) (write : bool) : bool :=
  existsb (fun x => (write || snd x) && negb (existsb (Nat.eqb (fst x)) k)) log.
