(** What is seen of one field in a run of MultiModel.v: its builder events, and the
    calls made on it and their results, read off the states.  Nothing of this is code
    in /repo. *)
From Coq Require Import List Bool Arith.
From Verif Require Import ProxyTypes MultiSpec StorySpec RegisterSpec MultiModel.
Import ListNotations.

(** The calls each thread is in, innermost first: what is on its call stack (no code of
    its own; see [tstep]). *)
Definition calls := tid -> list call.
Definition nobody_calls : calls := fun _ => [].
Definition set_calls (cs : calls) (t : tid) (l : list call) : calls :=
  fun u => if Nat.eqb u t then l else cs u.

Section Story.
  Variable builder : fid -> nat -> prog.
  Variable f : fid.

  (** What thread [t] does to [f] in its next step, as far as its code tells: it makes
      a call or a call returns (no code of its own; see [tstep]). *)
  Definition thread_note (cs : calls) (t : tid) (th : thread) : list note :=
    match code_of th with
    | User (PCall g (Proxy o) _) => if Nat.eqb g f && noted o then [NCall t o] else []
    | Call g (Ret _ r) _ =>
        match cs t with
        | Proxy o :: _ => if Nat.eqb g f && noted_ret o r then [NRet t o r] else []
        | _ => []
        end
    | _ => []
    end.

  (** The calls after that step (no code of its own). *)
  Definition calls_after (cs : calls) (t : tid) (th : thread) : calls :=
    match code_of th with
    | User (PCall _ c _) => set_calls cs t (c :: cs t)
    | Call _ (Ret _ _) _ => set_calls cs t (tl (cs t))
    | _ => cs
    end.

  (** The events of a run that concern the field (no code of its own). *)
  Definition event_note (e : bevent) : list note :=
    match e with
    | BStart t g => if Nat.eqb g f then [NStart t] else []
    | BEnd t g b => if Nat.eqb g f then [NEnd t b] else []
    end.

  (** A run, as seen at the field (no code of its own). *)
  Fixpoint story (cs : calls) (s : sys) (l : list (tid * nat)) : list note :=
    match l with
    | [] => []
    | a :: l' =>
        match nth_error (threads s) (fst a), step builder s a with
        | Some th, Some (s1, ev) =>
            thread_note cs (fst a) th ++ flat_map event_note ev ++
              story (calls_after cs (fst a) th) s1 l'
        | _, _ => []
        end
    end.

  (** The same for a locked field: calls and what they return (no code of its own). *)
  Definition lock_note (cs : calls) (t : tid) (th : thread) : list lnote :=
    match code_of th with
    | User (PCall g c _) => if Nat.eqb g f then [LCall t c] else []
    | Call g (Ret _ r) _ =>
        match cs t with
        | c :: _ => if Nat.eqb g f then [LRet t c r] else []
        | [] => []
        end
    | _ => []
    end.

  (** A run, as seen at the locked field (no code of its own). *)
  Fixpoint lock_story (cs : calls) (s : sys) (l : list (tid * nat)) : list lnote :=
    match l with
    | [] => []
    | a :: l' =>
        match nth_error (threads s) (fst a), step builder s a with
        | Some th, Some (s1, _) =>
            lock_note cs (fst a) th ++ lock_story (calls_after cs (fst a) th) s1 l'
        | _, _ => []
        end
    end.
End Story.

(** All guards of [f] that user code keeps: in the code that runs and in code that waits
    for a builder (read off the states; no code of its own). *)
Definition a_guard (f : fid) (x : fid * hold) : bool :=
  Nat.eqb (fst x) f && match snd x with HNone => false | _ => true end.
Definition kept (th : thread) : guards := held th ++ flat_map fr_held (stack th).
Definition guards_on (f : fid) (s : sys) : guards :=
  flat_map (fun th => filter (a_guard f) (kept th)) (threads s).
