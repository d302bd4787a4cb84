(** The builder type at run time: codegen.rs:325-422 (builder_impl), 424-465
    (builder_struct), codegen_trait.rs:228-276 (maybe_ref_counted_create), 357-478.

    A builder object gives for the identifier of each field the content of an Option.
    Simplifications: the hidden weak reference of an rc struct is left out of the object
    (it is the subject of RcModel.v); the error built by a check is represented by the
    name of the field whatever the error type is (codegen_trait.rs:404-421); values of
    all declared types are natural numbers (RustSem.v). *)
From Coq Require Import List Bool String Arith.
From Verif Require Import ProxyTypes ArgsModel CtxModel RustAst CommonGen StructGen RustSem FieldRun CodegenSpec BuilderSpec.
Import ListNotations.
Open Scope string_scope.

(** codegen_trait.rs:380-394 (field_builder_field): every field is an Option. *)
Definition bobj := string -> val.
Definition bset (b : bobj) (x : string) (v : val) : bobj :=
  fun y => if String.eqb x y then v else b y.
(** codegen.rs:342-350, 384-391 (new): all fields None. *)
Definition new_builder : bobj := fun _ => VNone.

(** An object of the struct: its fields with their storage, in order of declaration. *)
Definition object := list (string * val).

Section Build.
Variable dflt : nat.                      (* Default::default() of the declared types *)
Variable user : string -> nat.            (* the user's default expressions *)
Variable c : sctx.

(** Nothing in the builder calls a lazy builder, an owner is never looked for. *)
Definition idle : nat -> outcome nat nat := fun _ => BPanic.

(** codegen_trait.rs:357-378: calling the setter of field [x]. *)
Definition find_setter (x : string) : option mdecl :=
  option_map snd (find (fun p => String.eqb x (fst p)) (builder_setters c)).
Definition call_setter (x : string) (n : nat) (b : bobj) : option bobj :=
  match find_setter x with
  | None => None
  | Some m =>
      match call idle false false dflt user m n (mk_st (b x) 0 false 0) with
      | MVal VSelf s => Some (bset b x (fld s))
      | _ => None
      end
  end.

(** codegen.rs:361, 370-372 and codegen_trait.rs:422-426: the checks, in order. *)
Definition is_none (v : val) : bool := match v with VNone => true | _ => false end.
Definition failed_check (b : bobj) : option string :=
  find (fun x => is_none (b x)) (builder_checked c).

(** The values of the literal, in order (codegen_trait.rs:255-262); each expression may
    take the content of its own field of the builder. *)
Inductive made := Made (o : object) (b : bobj) | MadePanic (b : bobj) | MadeStuck.
Fixpoint make (l : list field) (b : bobj) : made :=
  match l with
  | [] => Made [] b
  | f :: t =>
      match field_type c f, field_build_value c f with
      | GOk ty, GOk e =>
          match run_value idle false false dflt user ty e (b (f_ident f)) with
          | inl (Some (v, rest)) =>
              match make t (bset b (f_ident f) rest) with
              | Made o b' => Made ((f_ident f, v) :: o) b'
              | r => r
              end
          | inl None => MadePanic b
          | inr _ => MadeStuck
          end
      | _, _ => MadeStuck
      end
  end.

(** ctx/codegen.rs:453-485 and fieldx_aux/src/builder_helper.rs:79-96: is there a
    post_build, and an error type for build(). *)
Definition has_post_build : bool :=
  match s_builder (c_args c) with Some b => is_some (b_post_build b) | None => false end.
Definition has_error_type : bool :=
  match s_builder (c_args c) with
  | Some b => match b_error b with Some (_ :: _) => true | _ => false end
  | None => false
  end.

(** codegen_trait.rs:236-275 (maybe_ref_counted_create): the literal, then a call of
    post_build with the object by value, then [?] if there is an error type; all of it in
    the closure of new_cyclic for an rc struct. *)
Inductive constr :=
| CLit | CPost (k : constr) | CTry (k : constr) | CCyclic (k : constr).
Definition construction : constr :=
  let posted :=
    if has_post_build then (if has_error_type then CTry (CPost CLit) else CPost CLit) else CLit in
  if s_is_ref_counted (c_args c) then CCyclic posted else posted.

(** Types of these expressions.  [ret]: does the innermost function or closure return a
    Result ([?] is refused otherwise); [fallible]: does the user's post_build.  The closure
    given to new_cyclic returns the struct itself (std: [FnOnce(&Weak<T>) -> T]). *)
Inductive cty := CObj | CRes | CRc.
Fixpoint ctype (fallible ret : bool) (k : constr) : option cty :=
  match k with
  | CLit => Some CObj
  | CPost k => match ctype fallible ret k with
               | Some CObj => Some (if fallible then CRes else CObj)
               | _ => None
               end
  | CTry k => match ctype fallible ret k with
              | Some CRes => if ret then Some CObj else None
              | _ => None
              end
  | CCyclic k => match ctype fallible false k with Some CObj => Some CRc | _ => None end
  end.
(** codegen.rs:393, 415-418: Ok(construction) in a function returning a Result of the
    struct, or of the pointer to it (codegen_trait.rs:221-230). *)
Definition build_compiles (fallible : bool) : bool :=
  match ctype fallible true construction with
  | Some CObj => negb (s_is_ref_counted (c_args c))
  | Some CRc => s_is_ref_counted (c_args c)
  | _ => false
  end.

(** Running them on an object: a value, a return from build() with an error, or a panic;
    and what was given to post_build.  Where post_build is to return the struct itself an
    error in the oracle counts as a panic.  [?] in the closure does not occur in a
    program that compiles. *)
Inductive flow := FObj (o : object) | FRes (r : object + nat) | FRet (e : nat) | FPanic | FStuck.
Variable post : object -> outcome object nat.
Fixpoint construct (k : constr) (o : object) : flow * list object :=
  match k with
  | CLit => (FObj o, [])
  | CPost k =>
      match construct k o with
      | (FObj o1, ps) =>
          (match post o1 with
           | BOk o2 => if has_error_type then FRes (inl o2) else FObj o2
           | BErr e => if has_error_type then FRes (inr e) else FPanic
           | BPanic => FPanic
           end, (ps ++ [o1])%list)
      | (FRes _, ps) => (FStuck, ps)
      | r => r
      end
  | CTry k =>
      match construct k o with
      | (FRes (inl o1), ps) => (FObj o1, ps)
      | (FRes (inr e), ps) => (FRet e, ps)
      | (FObj _, ps) => (FStuck, ps)
      | r => r
      end
  | CCyclic k =>
      match construct k o with
      | (FObj o1, ps) => (FObj o1, ps)
      | (FPanic, ps) => (FPanic, ps)
      | (_, ps) => (FStuck, ps)
      end
  end.
Inductive bres :=
| BDone (o : object) | BMissing (x : string) | BFailed (e : nat) | BPanicked | BStuck.
Definition finish_build (o : object) : bres * list object :=
  match construct construction o with
  | (FObj o', ps) => (BDone o', ps)
  | (FRet e, ps) => (BFailed e, ps)
  | (FPanic, ps) => (BPanicked, ps)
  | (_, ps) => (BStuck, ps)
  end.

(** build(): result, builder afterwards, objects given to post_build. *)
Definition build (b : bobj) : bres * bobj * list object :=
  match failed_check b with
  | Some x => (BMissing x, b, [])
  | None =>
      match make (builder_input c) b with
      | Made o b' => (fst (finish_build o), b', snd (finish_build o))
      | MadePanic b' => (BPanicked, b', [])
      | MadeStuck => (BStuck, b, [])
      end
  end.

(** A user of one builder: codegen_trait.rs:367-370 (setters take and return the builder),
    codegen.rs:413 (build borrows it). *)
Fixpoint build_run (l : list bact) (b : bobj) : option (list (bres * list object) * bobj) :=
  match l with
  | [] => Some ([], b)
  | BSet x n :: t =>
      match call_setter x n b with Some b' => build_run t b' | None => None end
  | BBuild :: t =>
      let '(r, b', ps) := build b in
      match build_run t b' with Some (rs, b'') => Some ((r, ps) :: rs, b'') | None => None end
  end.
End Build.

(** ** Comparing with BuilderSpec.v *)
(** The builder object shows what is filled in. *)
Definition shows_form (b : bobj) (g : form) : Prop := forall x, b x = opt_val (g x).
(** An object stores contents, each as the type of its field does. *)
Definition stored_as (c : sctx) (l : list (string * option nat)) (o : object) : Prop :=
  Forall2 (fun p q => fst p = fst q /\
    exists f t, In f (builder_input c) /\ f_ident f = fst p /\ field_type c f = GOk t /\
      rep t (snd p) = Some (snd q)) l o.
(** The macro generated type and value of every field of the builder. *)
Definition generated (c : sctx) : Prop :=
  forall f, In f (builder_input c) ->
    exists t e, field_type c f = GOk t /\ field_build_value c f = GOk e.
(** The entries of the builder, in order of declaration. *)
Definition entries (dflt : nat) (user : string -> nat) (c : sctx) : list entry :=
  map (entry_of dflt user c) (builder_input c).
(** What build() answered, and gave to post_build, agrees with the form. *)
Definition answers (c : sctx) (post : object -> outcome object nat) (r : bres * list object) (a : attempt)
  : Prop :=
  match a with
  | Refused x => r = (BMissing x, [])
  | Handed l => exists o, stored_as c l o /\ r = finish_build c post o
  | Broken => r = (BPanicked, [])
  end.
