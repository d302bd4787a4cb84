(** Reading histories: small functions over lists of observable events, used to
    state properties of lazy fields without mentioning any model of them. *)
From Coq Require Import List Bool Arith.
From Verif Require Import ProxyTypes.
Import ListNotations.

Section Trace.
  Context {V E : Type}.

  (** Who an event belongs to. *)
  Definition who (e : event V E) : aid :=
    match e with EvCall a _ | EvRet a _ | EvBuildStart a | EvBuildEnd a _ => a end.

  (** The last event of [a] in a history. *)
  Definition last_of (t : list (event V E)) (a : aid) : option (event V E) :=
    fold_left (fun acc e => if Nat.eqb (who e) a then Some e else acc) t None.

  (** The call [a] has made and that has not returned yet, if any. *)
  Definition pending (t : list (event V E)) (a : aid) : option (op V) :=
    fold_left (fun acc e =>
                 match e with
                 | EvCall b o => if Nat.eqb b a then Some o else acc
                 | EvRet b _ => if Nat.eqb b a then None else acc
                 | _ => acc
                 end) t None.

  (** Calls that empty the field. *)
  Definition clearing (o : op V) : bool :=
    match o with OClear | GClear => true | _ => false end.

  (** Calls that may run the builder. *)
  Definition lazy_call (o : op V) : bool :=
    match o with ORead | OTryRead | OReadMut | OTryReadMut | OLazyInit => true | _ => false end.

  (** A call selected by [p] is in progress at the end of [t1] or is made in [t2]. *)
  Definition overlapping (p : op V -> bool) (t1 t2 : list (event V E)) : Prop :=
    exists d o, p o = true /\ (pending t1 d = Some o \/ In (EvCall d o) t2).

  (** Events by which a value [v] can get into the field. *)
  Definition source (v : V) (e : event V E) : Prop :=
    match e with
    | EvCall _ (GStore w) | EvCall _ (GSet w) => w = v
    | EvBuildEnd _ (BOk w) => w = v
    | _ => False
    end.

  (** The answer [r] shows the value [v] to the caller. *)
  Definition shows (r : res V E) (v : V) : Prop :=
    match r with
    | RGuard w => w = v
    | RVal ov => ov = Some v
    | RClone ov _ _ => ov = Some v
    | _ => False
    end.

  (** No event of [a] in [t]. *)
  Definition silent (a : aid) (t : list (event V E)) : Prop :=
    forall e, In e t -> who e <> a.

  (** The call in progress and the guard kept by [a] after a history, as far as the
      caller can tell: a guard is kept from the return of the call that produced it
      until the call that drops it. *)
  Definition kept_next (a : aid) (x : option (op V) * hold) (e : event V E) : option (op V) * hold :=
    match e with
    | EvCall b o =>
        if Nat.eqb b a then (Some o, match o with GDrop => HNone | _ => snd x end) else x
    | EvRet b r =>
        if Nat.eqb b a then
          (None, match fst x, r with
                 | Some (ORead | OTryRead), RGuard _ => HR
                 | Some (OReadMut | OTryReadMut), RGuard _ => HM
                 | Some OWrite, RUnit => HW
                 | _, _ => snd x
                 end)
        else x
    | _ => x
    end.
  Definition kept (t : list (event V E)) (a : aid) : option (op V) * hold :=
    fold_left (kept_next a) t (None, HNone).
  Definition keeps (t : list (event V E)) (a : aid) : hold := snd (kept t a).

  (** The value [a] expects behind its guard: what it was given with the guard, or
      what it assigned through the guard last. *)
  Definition view_next (a : aid) (x : option V) (e : event V E) : option V :=
    match e with
    | EvRet b (RGuard v) => if Nat.eqb b a then Some v else x
    | EvCall b (GSet v) => if Nat.eqb b a then Some v else x
    | _ => x
    end.
  Definition view (t : list (event V E)) (a : aid) : option V :=
    fold_left (view_next a) t None.
End Trace.
