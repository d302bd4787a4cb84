(** What writing a struct to a document and reading it back should do, said without the
    shadow struct: a document gives a value or null for some keys. *)
From Coq Require Import List Bool String Arith.
From Verif Require Import ProxyTypes.
Import ListNotations.
Open Scope string_scope.

Definition document := list (string * option nat).
Fixpoint look {A} (d : list (string * A)) (k : string) : option A :=
  match d with
  | [] => None
  | (x, v) :: t => if String.eqb k x then Some v else look t k
  end.

(** A field as its user sees it. *)
Record slot := mk_slot {
  sl_key : string;                   (* its name in a document *)
  sl_written : bool;
  sl_read : bool;
  sl_lazy : bool;
  sl_maybe : bool;                   (* may be empty: optional or lazy *)
  sl_default : option nat;           (* what Default::default() puts there *)
  sl_missing : option (option nat);  (* what serde was told to use for a missing key *)
  sl_built : outcome nat nat         (* what its builder would give *)
}.

(** What is written for a field with content [k]; nothing is said if its builder is
    needed and fails. *)
Definition spec_written (s : slot) (k : option nat) : option (option nat) :=
  match k with
  | Some n => Some (Some n)
  | None => if sl_lazy s then match sl_built s with BOk n => Some (Some n) | _ => None end
            else Some None
  end.
Fixpoint spec_document (l : list (slot * option nat)) : option document :=
  match l with
  | [] => Some []
  | (s, k) :: t =>
      match spec_document t with
      | None => None
      | Some d =>
          if sl_written s
          then option_map (fun w => (sl_key s, w) :: d) (spec_written s k)
          else Some d
      end
  end.
(** How often each builder of a written lazy field runs. *)
Definition spec_builds (l : list (slot * option nat)) : list nat :=
  map (fun p => match snd p with Some _ => 0 | None => 1 end)
    (filter (fun p => sl_written (fst p) && sl_lazy (fst p)) l).

(** What a field holds after reading a document; [None]: the document is refused. *)
Definition spec_read (s : slot) (d : document) : option (option nat) :=
  if sl_read s then
    match look d (sl_key s) with
    | Some (Some n) => Some (Some n)
    | Some None => if sl_maybe s then Some None else None
    | None => match sl_missing s with
              | Some k => Some k
              | None => if sl_maybe s then Some None else None
              end
    end
  else Some (sl_default s).
Fixpoint spec_reads (l : list slot) (d : document) : option (list (option nat)) :=
  match l with
  | [] => Some []
  | s :: t =>
      match spec_read s d, spec_reads t d with
      | Some k, Some ks => Some (k :: ks)
      | _, _ => None
      end
  end.

(** What a field holds after writing and reading back. *)
Definition spec_back (s : slot) (k : option nat) : option nat :=
  if sl_written s && sl_read s then
    match k, sl_built s with
    | None, BOk n => if sl_lazy s then Some n else None
    | _, _ => k
    end
  else sl_default s.

(** The name of a field in a document, by the documentation (fieldx_derive/src/lib.rs:
    529-532, 565): the one given to serde, else the alternative name, else its own. *)
Definition spec_key (for_serde rename : option string) (ident : string) : string :=
  match for_serde, rename with
  | Some n, _ => n
  | None, Some n => n
  | None, None => ident
  end.
