(** What a builder promises: a form with one entry per field.  An entry may be filled in
    through a setter, must be filled in or not, and has a content to fall back to.
    Nothing here mentions emitted code. *)
From Coq Require Import List Bool String Arith.
From Verif Require Import ProxyTypes ArgsModel CtxModel CodegenSpec.
Import ListNotations.
Open Scope string_scope.

Record entry := mk_entry {
  en_name : string;
  en_settable : bool;                 (* has a setter *)
  en_must : bool;                     (* build() insists on it *)
  en_fallback : option (option nat)   (* content if left out: none, or a content *)
}.

(** What was filled in so far: the last value for each entry. *)
Definition form := string -> option nat.
Definition blank : form := fun _ => None.
Definition fill (g : form) (x : string) (n : nat) : form :=
  fun y => if String.eqb x y then Some n else g y.

(** The first entry that must be filled in and was not. *)
Definition first_missing (es : list entry) (g : form) : option string :=
  option_map en_name (find (fun e => en_must e && negb (is_some (g (en_name e)))) es).
(** Content of each field of the finished object; [None] if some entry has nothing to
    fall back to. *)
Definition entry_content (g : form) (e : entry) : option (option nat) :=
  match g (en_name e) with
  | Some n => Some (Some n)
  | None => en_fallback e
  end.
Fixpoint contents (es : list entry) (g : form) : option (list (string * option nat)) :=
  match es with
  | [] => Some []
  | e :: t =>
      match entry_content g e, contents t g with
      | Some o, Some l => Some ((en_name e, o) :: l)
      | _, _ => None
      end
  end.

(** The entries whose contents are taken before one without content is met. *)
Fixpoint taken (es : list entry) (g : form) : list entry :=
  match es with
  | [] => []
  | e :: t => match entry_content g e with Some _ => e :: taken t g | None => [] end
  end.

(** build(): refuses and keeps the form, or hands out the contents and blanks them, or
    breaks for want of a content. *)
Inductive attempt :=
| Refused (x : string) | Handed (l : list (string * option nat)) | Broken.
Definition spec_build (es : list entry) (g : form) : attempt :=
  match first_missing es g with
  | Some x => Refused x
  | None => match contents es g with Some l => Handed l | None => Broken end
  end.
Definition form_after (es : list entry) (g : form) : form :=
  match spec_build es g with
  | Refused _ => g
  | _ => fun x => if existsb (fun e => String.eqb x (en_name e)) (taken es g) then None else g x
  end.

(** A user of the form: fills in entries that can be filled in, and asks for objects. *)
Inductive bact := BSet (x : string) (n : nat) | BBuild.
Definition can_set (es : list entry) (x : string) : bool :=
  existsb (fun e => String.eqb x (en_name e) && en_settable e) es.
Fixpoint spec_forms (es : list entry) (l : list bact) (g : form) : option (list attempt * form) :=
  match l with
  | [] => Some ([], g)
  | BSet x n :: t => if can_set es x then spec_forms es t (fill g x n) else None
  | BBuild :: t =>
      match spec_forms es t (form_after es g) with
      | Some (rs, g') => Some (spec_build es g :: rs, g')
      | None => None
      end
  end.
(** Setters only: pairs of entry and value; what they leave. *)
Definition sets (l : list (string * nat)) : list bact := map (fun p => BSet (fst p) (snd p)) l.
Fixpoint last_given (l : list (string * nat)) (x : string) : option nat :=
  match l with
  | [] => None
  | (y, n) :: t =>
      match last_given t x with
      | Some m => Some m
      | None => if String.eqb y x then Some n else None
      end
  end.

(** ** From settings to the form *)
Section Entries.
Variable dflt : nat.
Variable user : string -> nat.

(** Does the field get a content of its own when nothing is given: the value of its
    default, unbuilt if lazy, empty if optional; the default of the type if [default] was
    given without a value or the field has no setter. *)
Definition own_content (c : sctx) (f : field) : option (option nat) :=
  match default_value f with
  | Some d => Some (Some (user (fst d)))
  | None =>
      if is_lazy c f || is_optional c f then Some None
      else if f_has_default_value f || negb (has_setter c f) then Some (Some dflt)
      else None
  end.
(** A field must be set if that is required explicitly, or if it has a setter and no
    content of its own. *)
Definition must_be_set (c : sctx) (f : field) : bool :=
  is_builder_required c f || (has_setter c f && negb (is_some (own_content c f))).
(** builder(off, "name"): a setter that is not asked for. *)
Definition named_off (c : sctx) (f : field) : bool :=
  forced_builder f && negb (needs_builder c f).
(** The check is left out for such a field. *)
Definition entry_of (c : sctx) (f : field) : entry :=
  mk_entry (f_ident f) (has_setter c f)
    (if named_off c f then is_builder_required c f else must_be_set c f)
    (own_content c f).
End Entries.
