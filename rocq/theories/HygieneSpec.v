(** What the names in a piece of code mean where it is put.  Nothing here mentions the
    macro.

    Property C90: every name in the generated code means what it is meant to, and the
    words of the user that are repeated in it mean what they mean at the struct. *)
From Coq Require Import List Bool String.
Import ListNotations.
Open Scope string_scope.

(** Types and traits, values (constants, variables, functions, variants), lifetimes and
    derive macros are told apart by where they stand. *)
Inductive space := Types | Values | Lifetimes | Macros.
Definition name : Type := space * string.

(** What stands around the struct. *)
Record surroundings := mk_surroundings {
  w_params : list name;               (* parameters of the struct *)
  w_items : list name;                (* other items of the module, and imports by name *)
  w_constants : list name;            (* those of them that can stand in a pattern *)
  w_globs : list name;                (* what comes with the user's [use ..::*] *)
  w_type : string -> list name;       (* names in the type of a field *)
  w_default : string -> list name;    (* names in the default of a field *)
  w_error : list name                 (* names in the error type of its builder *)
}.

Inductive meaning :=
| Bound        (* bound by the code around it *)
| Param        (* a parameter of the struct *)
| Users        (* an item of the user *)
| Generated    (* the struct or a type made from it *)
| Imported     (* of fieldx::traits *)
| Std          (* known everywhere *)
| Unclear.     (* several things, or nothing *)

(** Known everywhere: the prelude and the primitive types, as far as they matter here. *)
Definition std : list name :=
  [(Types, "Default"); (Types, "Send"); (Types, "Copy"); (Types, "bool");
   (Values, "Ok"); (Values, "Some"); (Values, "None")].
(** fieldx::traits. *)
Definition traits : list name :=
  [(Types, "FXStruct"); (Types, "FXBuilderWrapper"); (Types, "FieldXError")].

Definition space_eqb (a b : space) : bool :=
  match a, b with
  | Types, Types | Values, Values | Lifetimes, Lifetimes | Macros, Macros => true
  | _, _ => false
  end.
Definition same_name (a b : name) : bool := space_eqb (fst a) (fst b) && String.eqb (snd a) (snd b).
Definition among (n : name) (l : list name) : bool := existsb (same_name n) l.

(** From the inside to the outside: what the code itself binds, the parameters, the items
    of the module, the glob imports ([use ::fieldx::traits::*] is one), the prelude. *)
Definition mean (made : list name) (w : surroundings) (bound : list name) (n : name) : meaning :=
  if among n bound then Bound
  else if among n (w_params w) then Param
  else if among n (w_items w) then Users
  else if among n made then Generated
  else match among n traits, among n (w_globs w) with
       | true, true => Unclear
       | true, false => Imported
       | false, true => Users
       | false, false => if among n std then Std else Unclear
       end.

(** A piece of code: it mentions a name and means something by it, repeats a word of the
    user, or binds a name. *)
Inductive piece :=
| Says (bound : list name) (n : name) (m : meaning)
| Repeats (bound : list name) (n : name)
| Binds (n : name).
Definition sound (made : list name) (w : surroundings) (p : piece) : Prop :=
  match p with
  | Says b n m => mean made w b n = m
  | Repeats b n => mean made w b n = mean made w [] n
  | Binds n => ~ In n (w_params w) /\ ~ In n (w_constants w)
  end.
