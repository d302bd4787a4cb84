(** One thread uses the methods emitted for all the fields of an object and keeps what they
    return.  Programs that rustc refuses (a method that takes [&mut self] while a guard of
    another field is alive) are among those run here; so more is said than is needed. *)
From Coq Require Import List Bool String Arith.
From Verif Require Import ProxyTypes ArgsModel CtxModel RustAst RustSem CommonGen StructGen CodegenSpec FieldSpec FieldRun ObjectSpec LifeModel.
Import ListNotations.

Section Session.
Variable bld : nat -> nat -> outcome nat nat.
Variable dflt : nat.
Variable user : string -> nat.
Variable c : sctx.
Variable fs : list field.
(** An action with one field (codegen/plain.rs:62-331, codegen/sync.rs:199-647); the owner is there, so
    [alive]. *)
Definition field_act (i : nat) (a : act) (u : ist) : option (obs * ist) :=
  match nth_error fs i with
  | Some f =>
      match field_methods c f with
      | GOk ms => impl_act (bld i) (is_fallible c f) true dflt user ms a u
      | _ => None
      end
  | None => None
  end.
(** User code with the methods of codegen/plain.rs and codegen/sync.rs. *)
Fixpoint impl_session (l : list (nat * act)) (us : list ist) : option (list obs * list ist) :=
  match l with
  | [] => Some ([], us)
  | (i, a) :: t =>
      match nth_error us i with
      | Some u =>
          match field_act i a u with
          | Some (OWait, u') => Some ([OWait], put us i u')
          | Some (o, u') => match impl_session t (put us i u') with Some (os, us') => Some (o :: os, us') | None => None end
          | None => None
          end
      | None => None
      end
  end.
(** Only methods that there are (codegen_trait.rs:287-321). *)
Definition session_offered (l : list (nat * act)) : bool :=
  forallb (fun x => match nth_error fs (fst x) with
                    | Some f => match field_methods c f with GOk ms => only_calls (offered ms) [snd x] | _ => false end
                    | None => false
                    end) l.
End Session.
(** An object that nobody uses (codegen_trait.rs:287-321). *)
Definition all_fresh (vs : list val) : list ist := map (fun w => fresh w 0) vs.
