(** The life of an object: its owner uses it alone, gives it to any number of threads or
    tasks, gets it back when they are done, and so on.  Nothing here mentions emitted code,
    containers, locks or generators.

    Property C93: through all of its life an object is one record of cells, which begins
    with what the builder was given, or what defaults or a document say, and whose contents
    go on from one scene to the next, up to the document that is written at the end. *)
From Coq Require Import List Bool String Arith.
From Verif Require Import ProxyTypes ArgsModel TokenSpec ParseInput ParseSpec WrittenSpec SignSpec FieldSpec ThreadSpec ObjectSpec BehaveSpec.
Import ListNotations.

(** What is seen in a scene, and how builders end in it (by number of the call).  [Alone]:
    the owner uses one field; [Together]: what many see. *)
Inductive scene :=
| Alone (bld : nat -> outcome nat nat) (i : nat) (l : list act) (os : list obs)
| Together (bld : nat -> nat -> outcome nat nat) (h : list (nat * hist)).

Section Life.
  Variable dflt : nat.
  Variable parts : list (view * bool).       (* what cells promise; can calls be abandoned *)
  Definition roles_now (ks : list (option nat)) : list role :=
    map (fun x => mk_role (fst (fst x)) (snd (fst x)) (snd x)) (combine parts ks).
  (** Everybody is done with the cell, which holds [k]. *)
  Definition left_with (w : cellst * (aid -> wstat)) (k : option nat) : Prop :=
    (forall a, snd w a = WFree) /\ c_val (fst w) = k.

  (** From contents to contents. *)
  Inductive tale : list (option nat) -> list scene -> list (option nat) -> Prop :=
  | tl_end ks : tale ks [] ks
  | tl_alone ks bld i l os r k k' b rest ks' :
      nth_error parts i = Some r -> nth_error ks i = Some k ->
      spec_run bld dflt (fst r) l (mk_ust k [] 0) = Some (os, mk_ust k' [] b) ->
      tale (put ks i k') rest ks' -> tale ks (Alone bld i l os :: rest) ks'
  | tl_together ks bld h ws ks1 rest ks' :
      rruns bld dflt (roles_now ks) (rstart (roles_now ks)) h ws -> Forall2 left_with ws ks1 ->
      tale ks1 rest ks' -> tale ks (Together bld h :: rest) ks'.

  (** The owner writes a program that makes sense: no guard is used that is not there, and
      so on. *)
  Definition makes_sense (s : scene) : Prop :=
    match s with
    | Alone bld i l _ => forall r k, nth_error parts i = Some r -> has_content (fst r) k = true ->
        spec_run bld dflt (fst r) l (mk_ust k [] 0) <> None
    | Together _ _ => True
    end.
End Life.

(** ** From the words of the attributes *)
(** One cell for each field that is not skipped, in order. *)
Inductive cells_told (ss : list (list tok)) (all : list source) : list source -> list (view * bool) -> Prop :=
| ct_nil : cells_told ss all [] []
| ct_skip : forall x l ps, skipped x -> cells_told ss all l ps -> cells_told ss all (x :: l) ps
| ct_cell : forall x q l ps, ~ skipped x -> facts_told ss all x q -> cells_told ss all l ps ->
    cells_told ss all (x :: l) ((told_view q, q_async q) :: ps).
(** What Default puts into them. *)
Inductive defaults_told (dflt : nat) (user : string -> nat) (ss : list (list tok)) : list source -> list (option nat) -> Prop :=
| dt_nil : defaults_told dflt user ss [] []
| dt_skip : forall x l ks, skipped x -> defaults_told dflt user ss l ks -> defaults_told dflt user ss (x :: l) ks
| dt_cell : forall x l k ks, ~ skipped x -> starts_as dflt user ss x k -> defaults_told dflt user ss l ks ->
    defaults_told dflt user ss (x :: l) (k :: ks).
(** All the methods that the words ask for compile and mean what they should. *)
Definition sound_words (ss : list (list tok)) (all : list source) : Prop :=
  forall x q k, In x all -> ~ skipped x -> facts_told ss all x q -> method_for ss all x k -> sound_call q k = true.
(** With a document all fields have a content, skipped ones too: [ks'] is [ks] with the cells
    replaced by [js].  So [rewritten l ks js ks] says that [js] are the cells of [ks]. *)
Inductive rewritten : list source -> list (option nat) -> list (option nat) -> list (option nat) -> Prop :=
| rw_nil : rewritten [] [] [] []
| rw_skip : forall x l k ks js ks', skipped x -> rewritten l ks js ks' -> rewritten (x :: l) (k :: ks) js (k :: ks')
| rw_cell : forall x l k ks j js ks', ~ skipped x -> rewritten l ks js ks' -> rewritten (x :: l) (k :: ks) (j :: js) (j :: ks').
