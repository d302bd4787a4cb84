(** Calls by name. *)
From Coq Require Import List Bool String.
From Verif Require Import ProxyTypes ArgsModel RustAst RustSem FieldSpec FieldRun BehaveSpec.
Import ListNotations.
Open Scope string_scope.

(** The methods of a field are in one impl (fieldx_derive/src/codegen.rs:518-524, finalize); Rust
    resolves a call to the method with the name.  It is run as the only method of its kind. *)
Definition resolve (ms : list mdecl) (a : nact) : option act :=
  match a with
  | NCall t n u => option_map (fun m => ACall (m_kind m) n u) (find (fun m => String.eqb (m_name m) t) ms)
  | NPeek i => Some (APeek i)
  | NAssign i v => Some (AAssign i v)
  | NDrop i => Some (ADrop i)
  end.
(** One call: codegen/plain.rs and codegen/sync.rs as run by RustSem.v. *)
Definition named_act bld fallible alive dflt user (ms : list mdecl) (a : nact) (s : ist) : option (obs * ist) :=
  match resolve ms a with Some b => impl_act bld fallible alive dflt user ms b s | None => None end.
(** A whole program, likewise. *)
Fixpoint resolve_all (ms : list mdecl) (p : list nact) : option (list act) :=
  match p with
  | [] => Some []
  | a :: r => match resolve ms a, resolve_all ms r with Some b, Some l => Some (b :: l) | _, _ => None end
  end.
(** Run: codegen/plain.rs and codegen/sync.rs as in RustSem.v. *)
Definition named_run bld fallible alive dflt user (ms : list mdecl) (p : list nact) (s : ist) : option (list obs * ist) :=
  match resolve_all ms p with Some l => impl_run bld fallible alive dflt user ms l s | None => None end.
