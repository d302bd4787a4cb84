(** Independent description of how the parameters of a generic struct are to be written
    in the items generated for it. *)
From Coq Require Import List Bool String.
From Verif Require Import TokenSpec.
Import ListNotations.
Open Scope string_scope.
Open Scope list_scope.

(** A parameter: its name as text (a quote goes with a lifetime), whether it is a const,
    its bounds (the type of a const) and its default; empty text for none. *)
Record param := mk_param { p_name : list atom; p_const : bool; p_bound : list atom; p_default : list atom }.

(** Where the parameters stand: a struct may declare bounds and defaults, an impl bounds
    only; everywhere else the parameters are named. *)
Inductive place := AtStruct | AtImpl | AtUse.
Definition after (sep : string) (l : list atom) : list atom :=
  match l with [] => [] | _ => APunct sep :: l end.
Definition param_text (w : place) (p : param) : list atom :=
  match w with
  | AtUse => p_name p
  | AtImpl => (if p_const p then [AIdent "const"] else []) ++ p_name p ++ after ":" (p_bound p)
  | AtStruct => (if p_const p then [AIdent "const"] else []) ++ p_name p ++ after ":" (p_bound p)
                ++ after "=" (p_default p)
  end.
Definition params_text (w : place) (ps : list param) : list atom :=
  match ps with
  | [] => []
  | _ => APunct "<" :: commas (map (param_text w) ps) ++ [APunct ">"]
  end.
(** Parameters that are declared by their name alone. *)
Definition bare (p : param) : Prop := p_const p = false /\ p_bound p = [] /\ p_default p = [].
