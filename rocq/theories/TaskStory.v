(** What is seen of one field in a run of TaskModel.v: its events, and the calls made
    on it, read off the states.  Nothing of this is code in /repo. *)
From Coq Require Import List Bool Arith.
From Verif Require Import ProxyTypes MultiSpec TaskSpec StorySpec RegisterSpec TaskModel.
Import ListNotations.

Section Story.
  Variable inside : tid -> bool.
  Variable builder : fid -> nat -> prog.
  Variable f : fid.

  (** A blocking call inside the runtime panics before it touches the field
      (async/fxproxy.rs:109, 257 and tokio's blocking_read): left out. *)
  Definition reaches (t : tid) (o : op nat) : bool := negb (inside t && blocking (Proxy o)).

  (** The call that task [t] is about to make: its code stands before [f.c()]
      (no code of its own; see [tstep]). *)
  Definition call_note (t : tid) (a : act) (th : task) : list note :=
    match a, code_of th with
    | Go _, User (PCall g (Proxy o) _) =>
        if Nat.eqb g f && (reaches t o && noted o) then [NCall t o] else []
    | _, _ => []
    end.

  (** The events of a run that concern the field (no code of its own). *)
  Definition event_note (e : tevent) : list note :=
    match e with
    | TStart t g => if Nat.eqb g f then [NStart t] else []
    | TEnd t g b => if Nat.eqb g f then [NEnd t b] else []
    | TRet t g (Proxy o) r =>
        if Nat.eqb g f && (reaches t o && noted_ret o r) then [NRet t o r] else []
    | TRet _ _ _ _ => []
    end.

  (** A run, as seen at the field (no code of its own). *)
  Fixpoint story (s : sys) (l : list (tid * act)) : list note :=
    match l with
    | [] => []
    | a :: l' =>
        match nth_error (tasks s) (fst a), step inside builder s a with
        | Some th, Some (s1, ev) =>
            call_note (fst a) (snd a) th ++ flat_map event_note ev ++ story s1 l'
        | _, _ => []
        end
    end.

  (** The same for a locked field: calls and what they return (no code of its own). *)
  Definition lock_call (t : tid) (a : act) (th : task) : list lnote :=
    match a, code_of th with
    | Go _, User (PCall g c _) => if Nat.eqb g f then [LCall t c] else []
    | _, _ => []
    end.
  Definition lock_ret (e : tevent) : list lnote :=
    match e with
    | TRet t g c r => if Nat.eqb g f then [LRet t c r] else []
    | _ => []
    end.

  (** A run, as seen at the locked field (no code of its own). *)
  Fixpoint lock_story (s : sys) (l : list (tid * act)) : list lnote :=
    match l with
    | [] => []
    | a :: l' =>
        match nth_error (tasks s) (fst a), step inside builder s a with
        | Some th, Some (s1, ev) =>
            lock_call (fst a) (snd a) th ++ flat_map lock_ret ev ++ lock_story s1 l'
        | _, _ => []
        end
    end.
End Story.

(** All guards of [f] that are around: kept by the code that runs, by code that waits for
    a builder, or left over from futures that were dropped (read off the states; no code
    of its own). *)
Definition a_guard (f : fid) (x : fid * hold) : bool :=
  Nat.eqb (fst x) f && match snd x with HNone => false | _ => true end.
Definition kept (th : task) : guards :=
  match code_of th with Leave gs _ => gs | _ => [] end ++ held th ++ flat_map fr_held (stack th).
Definition guards_on (f : fid) (s : sys) : guards :=
  flat_map (fun th => filter (a_guard f) (kept th)) (tasks s).
