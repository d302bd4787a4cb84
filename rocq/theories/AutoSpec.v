(** When a value may be moved to another thread (Send) and when it may be used by several
    threads at once (Sync).  The rules are those of the Rust reference (auto traits: a type has
    one if all it is made of has it, and assuming so of the type itself is fair) and of the
    documentation of std, once_cell, parking_lot and tokio.  Nothing of the macro is used. *)
From Coq Require Import List Bool String.
From Verif Require Import ArgsModel TokenSpec ParseInput ParseSpec GrammarSpec RustAst WrittenSpec.
Import ListNotations.
Open Scope string_scope.
Open Scope list_scope.

(** What matters of a type. *)
Inductive rty :=
| RLeaf (sd sh : bool)   (* does not mention the struct; whether it is Send, whether it is Sync *)
| RSelf                  (* the struct *)
| RArc (t : rty)         (* Arc<t>, sync::Weak<t> *)
| RRc (t : rty)          (* Rc<t>, rc::Weak<t> *)
| ROpt (t : rty)         (* Option<t>, and whatever else owns a t *)
| RCell (t : rty)        (* RefCell<t>, OnceCell<t> *)
| RLock (t : rty)        (* RwLock<t>, of parking_lot and of tokio *)
| RRef (t : rty)         (* &t *)
| RRead (t : rty)        (* tokio's RwLockReadGuard<t> *)
| RWrite (t : rty)       (* tokio's RwLockWriteGuard<t> *)
| RBoth (a b : rty).     (* a struct, a tuple, a future: made of a and b *)

Section Auto.
  (** What the struct is made of. *)
  Variable body : rty.
  CoInductive sends : rty -> Prop :=
  | send_leaf : forall y, sends (RLeaf true y)
  | send_self : sends body -> sends RSelf
  | send_arc : forall t, sends t -> shares t -> sends (RArc t)
  | send_opt : forall t, sends t -> sends (ROpt t)
  | send_cell : forall t, sends t -> sends (RCell t)
  | send_lock : forall t, sends t -> sends (RLock t)
  | send_ref : forall t, shares t -> sends (RRef t)
  | send_read : forall t, shares t -> sends (RRead t)
  | send_write : forall t, sends t -> shares t -> sends (RWrite t)
  | send_both : forall a b, sends a -> sends b -> sends (RBoth a b)
  with shares : rty -> Prop :=
  | share_leaf : forall x, shares (RLeaf x true)
  | share_self : shares body -> shares RSelf
  | share_arc : forall t, sends t -> shares t -> shares (RArc t)
  | share_opt : forall t, shares t -> shares (ROpt t)
  | share_lock : forall t, sends t -> shares t -> shares (RLock t)
  | share_ref : forall t, shares t -> shares (RRef t)
  | share_read : forall t, sends t -> shares t -> shares (RRead t)
  | share_write : forall t, sends t -> shares t -> shares (RWrite t)
  | share_both : forall a b, shares a -> shares b -> shares (RBoth a b).
End Auto.

(** ** From the words written *)
Section Words.
  Variables (ss : list (list tok)) (all : list source).
  (** Whether the struct as a whole is for threads. *)
  Definition threaded : Prop :=
    decide (struct_sync_words ss ++ map (fun y => jointly (sync_words y)) all) False.
  (** A field in a cell. *)
  Definition celled (x : source) : Prop := ~ in_sync ss all x /\ (lazily ss x \/ asks ss x "inner_mut" False).
  (** A field behind a lock. *)
  Definition protected (x : source) : Prop := in_sync ss all x /\ ~ skipped x /\ (lazily ss x \/ locked ss x).
  (** A field, declared with type [d], that several threads may use at once. *)
  Definition common (body : rty) (x : source) (d : rty) : Prop :=
    ~ celled x /\ shares body d /\ (protected x -> sends body d).
  (** A lazy field built by a future. *)
  Definition awaited_lazy (x : source) : Prop := in_sync ss all x /\ in_async ss x /\ lazily ss x.
End Words.
