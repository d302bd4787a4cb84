(** What the methods generated for one field promise, in one thread: an optional cell
    with a builder, and guards that exclude each other.  Nothing here mentions emitted
    code, containers or generators. *)
From Coq Require Import List Bool String Arith.
From Verif Require Import ProxyTypes ArgsModel CtxModel CodegenSpec.
Import ListNotations.

(** What kind of content: always a value, maybe one, or built on demand. *)
Inductive shape := Bare | Maybe | Lazy (fallible : bool).
(** What happens to a call that conflicts with a living guard: there are no guards, the
    call panics, the call waits (for ever, if the guard belongs to the same thread), the
    call waits for all guards, even to read. *)
Inductive discipline := Direct | Panicking | Blocking | Solo.

Record view := mk_view {
  v_shape : shape;
  v_disc : discipline;
  v_keeps : bool                   (* the getter hands out a guard, not a copy *)
}.

(** The cell: content, living guards, calls of the builder so far. *)
Record cellst := mk_cellst { c_val : option nat; c_readers : nat; c_writer : bool; c_builds : nat }.

Inductive answer :=
| AnVal (n : nat) | AnOpt (o : option nat) | AnErr (e : nat) | AnBool (b : bool)
| AnWriter.                        (* the write guard of a lazy field, maybe empty *)
Inductive result := Returns (a : answer) (c : cellst) | Panics (c : cellst) | Waits (c : cellst)
| Nonsense.

Definition excluded (w : bool) (c : cellst) : bool :=
  if w then c_writer c || (0 <? c_readers c)%nat else c_writer c.
Definition with_access (d : discipline) (w : bool) (c : cellst) (r : result) : result :=
  match d with
  | Direct => r
  | Panicking => if excluded w c then Panics c else r
  | Blocking => if excluded w c then Waits c else r
  | Solo => if excluded true c then Waits c else r
  end.
Definition keeping (d : discipline) (keep w : bool) (c : cellst) : cellst :=
  match d with
  | Direct => c
  | _ => if keep
         then if w then mk_cellst (c_val c) (c_readers c) true (c_builds c)
              else mk_cellst (c_val c) (S (c_readers c)) (c_writer c) (c_builds c)
         else c
  end.
Definition filled (c : cellst) (o : option nat) : cellst :=
  mk_cellst o (c_readers c) (c_writer c) (c_builds c).
Definition built (c : cellst) : cellst :=
  mk_cellst (c_val c) (c_readers c) (c_writer c) (S (c_builds c)).

Section Cell.
Variable bld : nat -> outcome nat nat.    (* the builder, by number of the call *)
Variable dflt : nat.                      (* the default of the type *)

(** Looking at the content, for reading or writing; filling an empty lazy cell. *)
Definition look (v : view) (w keep : bool) (c : cellst) : result :=
  match v_shape v, c_val c with
  | Maybe, o => with_access (v_disc v) w c (Returns (AnOpt o) (keeping (v_disc v) keep w c))
  | _, Some n => with_access (v_disc v) w c (Returns (AnVal n) (keeping (v_disc v) keep w c))
  | Lazy fallible, None =>
      with_access (v_disc v) true c
        match bld (c_builds c) with
        | BOk n => Returns (AnVal n) (keeping (v_disc v) keep w (filled (built c) (Some n)))
        | BErr e => if fallible then Returns (AnErr e) (built c) else Panics (built c)
        | BPanic => Panics (built c)
        end
  | Bare, None => Nonsense
  end.
Definition old (v : view) (c : cellst) : answer :=
  match v_shape v, c_val c with
  | Bare, Some n => AnVal n
  | _, o => AnOpt o
  end.
Definition spec_call (v : view) (k : hkind) (n : nat) (c : cellst) : result :=
  match k with
  | KAccessor => look v false (v_keeps v) c
  | KReader => look v false true c
  | KAccessorMut => look v true true c
  | KWriter =>
      match v_shape v with
      | Lazy _ => with_access (v_disc v) true c (Returns AnWriter (keeping (v_disc v) true true c))
      | _ => look v true true c
      end
  | KSetter => with_access (v_disc v) true c (Returns (old v c) (filled c (Some n)))
  | KClearer =>
      with_access (v_disc v) true c
        (Returns (old v c) (filled c (match v_shape v with Bare => Some dflt | _ => None end)))
  | KPredicate =>
      let r := Returns (AnBool (is_some (c_val c))) c in
      match v_shape v with
      | Lazy _ => r
      | _ => with_access (v_disc v) false c r
      end
  | KBuilder | KLazy => Nonsense
  end.

(** ** A user: calls methods, keeps guards, looks and assigns through them, drops them *)
Inductive usage := Keep | Release | Assign (x : option nat).  (* assign, then release *)
Inductive act :=
| ACall (k : hkind) (n : nat) (u : usage)
| APeek (i : nat) | AAssign (i : nat) (x : option nat) | ADrop (i : nat).
Inductive obs := ORet (a : answer) | OPanic | OWait | ODone.

(** A kept guard: may it write, and is it the write guard of a lazy field (which can
    store and clear but shows nothing)? *)
Record guard := mk_guard { gd_write : bool; gd_raw : bool }.
Record ust := mk_ust { u_val : option nat; u_guards : list guard; u_builds : nat }.
Definition readers (l : list guard) : nat := List.length (filter (fun h => negb (gd_write h)) l).
Definition writing (l : list guard) : bool := existsb gd_write l.
Definition cell_of (u : ust) : cellst :=
  mk_cellst (u_val u) (readers (u_guards u)) (writing (u_guards u)) (u_builds u).

Definition is_lazy_view (v : view) : bool := match v_shape v with Lazy _ => true | _ => false end.
Definition raw_writer (v : view) (k : hkind) : bool :=
  match k with KWriter => is_lazy_view v | _ => false end.
(** Does a successful call of this method hand out a guard? *)
Definition hands_guard (v : view) (k : hkind) : option guard :=
  match v_disc v, k with
  | Direct, _ => None
  | _, (KAccessorMut | KWriter) => Some (mk_guard true (raw_writer v k))
  | _, KReader => Some (mk_guard false false)
  | _, KAccessor => if v_keeps v then Some (mk_guard false false) else None
  | _, _ => None
  end.
Definition mutator (k : hkind) : bool := match k with KAccessorMut | KWriter => true | _ => false end.
(** What may be assigned: presence changes only where the type of the handle allows. *)
Definition assignable (v : view) (raw : bool) (x : option nat) : bool :=
  match v_shape v with Maybe => true | _ => raw || is_some x end.
Fixpoint drop_nth {A} (l : list A) (i : nat) : list A :=
  match l, i with
  | [], _ => []
  | _ :: t, O => t
  | h :: t, S j => h :: drop_nth t j
  end.
Definition shown (v : view) (raw : bool) (o : option nat) : answer :=
  if raw then AnWriter
  else match v_shape v, o with
       | Maybe, _ => AnOpt o
       | _, Some n => AnVal n
       | _, None => AnOpt None
       end.

(** [None]: not a meaningful act. *)
Definition spec_act (v : view) (a : act) (u : ust) : option (obs * ust) :=
  match a with
  | ACall k n us =>
      match spec_call v k n (cell_of u) with
      | Returns an c =>
          let u' := mk_ust (c_val c) (u_guards u) (c_builds c) in
          match us, an with
          | Keep, AnErr _ | Release, _ => Some (ORet an, u')
          | Keep, _ =>
              Some (ORet an,
                match hands_guard v k with
                | Some h => mk_ust (c_val c) (u_guards u ++ [h])%list (c_builds c)
                | None => u'
                end)
          | Assign x, _ =>
              if mutator k && assignable v (raw_writer v k) x
              then Some (ORet an,
                     match an with
                     | AnErr _ => u'
                     | _ => mk_ust x (u_guards u) (c_builds c)
                     end)
              else None
          end
      | Panics c => Some (OPanic, mk_ust (c_val c) (u_guards u) (c_builds c))
      | Waits c => Some (OWait, mk_ust (c_val c) (u_guards u) (c_builds c))
      | Nonsense => None
      end
  | APeek i =>
      match nth_error (u_guards u) i with
      | Some h => Some (ORet (shown v (gd_raw h) (u_val u)), u)
      | None => None
      end
  | AAssign i x =>
      match nth_error (u_guards u) i with
      | Some h => if gd_write h && assignable v (gd_raw h) x
                  then Some (ODone, mk_ust x (u_guards u) (u_builds u)) else None
      | None => None
      end
  | ADrop i =>
      match nth_error (u_guards u) i with
      | Some _ => Some (ODone, mk_ust (u_val u) (drop_nth (u_guards u) i) (u_builds u))
      | None => None
      end
  end.
(** A user goes on after a panic but not after waiting for oneself. *)
Fixpoint spec_run (v : view) (l : list act) (u : ust) : option (list obs * ust) :=
  match l with
  | [] => Some ([], u)
  | a :: t =>
      match spec_act v a u with
      | Some (OWait, u') => Some ([OWait], u')
      | Some (o, u') =>
          match spec_run v t u' with Some (os, u'') => Some (o :: os, u'') | None => None end
      | None => None
      end
  end.
End Cell.

(** ** From settings to the view *)
Definition plain_view (s : settings) : view :=
  mk_view (if w_lazy s then Lazy (w_fallible s) else if w_optional s then Maybe else Bare)
    (if w_lazy s then Direct else if w_inner_mut s then Panicking else Direct)
    (negb (by_value s)).
Definition sync_view (s : settings) : view :=
  mk_view (if w_lazy s then Lazy (w_fallible s) else if w_optional s then Maybe else Bare)
    (if w_lazy s then if w_async s then Solo else Blocking else if w_lock s then Blocking else Direct)
    (negb (by_value s)).

(** The one combination where a method compiles and does something else: the predicate
    of a field under a lock that is fallible without being lazy tells whether the lock
    was free. *)
Definition meant (sync : bool) (s : settings) (k : hkind) : bool :=
  match k with
  | KPredicate => negb (sync && negb (w_lazy s) && w_lock s && w_fallible s)
  | _ => true
  end.

(** For a field of a struct: what its methods promise, and which of them exist, compile
    (C38) and are meant. *)
Definition view_of (c : sctx) (f : field) : view :=
  if is_sync c f then sync_view (settings_of c f) else plain_view (settings_of c f).
Definition works (c : sctx) (f : field) (k : hkind) : bool :=
  asked c f k
  && (if is_sync c f then sync_well_typed (settings_of c f) k else plain_well_typed (settings_of c f) k)
  && meant (is_sync c f) (settings_of c f) k.
Definition only_calls (p : hkind -> bool) (l : list act) : bool :=
  forallb (fun a => match a with ACall k _ _ => p k | _ => true end) l.
(** Nothing is kept from one call to the next. *)
Definition nothing_kept (l : list act) : bool :=
  forallb (fun a => match a with ACall _ _ Keep => false | ACall _ _ _ => true | _ => false end) l.
(** A field that always has a value has one. *)
Definition has_content (v : view) (o : option nat) : bool :=
  match v_shape v with Bare => is_some o | _ => true end.

(** When a call must fail because of the guards that are alive, given whether each of
    them may write. *)
Definition conflicting (k : hkind) (writers : list bool) : bool :=
  match k with
  | KAccessor | KPredicate | KReader => existsb (fun w => w) writers
  | _ => match writers with [] => false | _ => true end
  end.

(** The same for a lazy field: looking whether it is set is always possible; reading an
    async one needs all guards gone. *)
Definition lazy_conflicting (async : bool) (k : hkind) (writers : list bool) : bool :=
  match k with
  | KPredicate => false
  | KAccessor | KReader =>
      if async then match writers with [] => false | _ => true end else existsb (fun w => w) writers
  | _ => match writers with [] => false | _ => true end
  end.

(** The settings that decide what kind of content a field has. *)
Definition same_content (s1 s2 : settings) : Prop :=
  w_lazy s1 = w_lazy s2 /\
  (w_lazy s1 = true -> w_fallible s1 = w_fallible s2) /\
  (w_lazy s1 = false -> w_optional s1 = w_optional s2).

(** Calls that type-check as programs. *)
Definition sensible (v : view) (a : act) : bool :=
  match a with
  | ACall (KBuilder | KLazy) _ _ => false
  | ACall k _ (Assign x) => mutator k && assignable v (raw_writer v k) x
  | _ => true
  end.

(** Reads and predicates only, and what they answer when the content is [n]. *)
Definition reads (l : list act) : bool :=
  forallb (fun a => match a with ACall (KAccessor | KPredicate) _ Release => true | _ => false end) l.
Definition read_answer (n : nat) (a : act) : obs :=
  match a with ACall KAccessor _ _ => ORet (AnVal n) | _ => ORet (AnBool true) end.
