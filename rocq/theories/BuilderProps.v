(** Properties of the builder type: C19 to C25.  [build_run] runs emitted setters and
    build() (BuilderModel.v); the form of BuilderSpec.v says what they should do.
    [sets l]: a sequence of setter calls; [last_given l x]: the last value given for x.
    Identifiers of fields are distinct in every Rust struct.  [generated c]: no field has
    a generation error. *)
From Coq Require Import List Bool String Arith.
From Verif Require Import ProxyTypes ArgsModel CtxModel ArgsSpec ArgsFixtures ArgsProps RustAst
  CommonGen StructGen CodegenSpec CodegenProps RustSem FieldRun BuilderModel BuilderSpec BuilderFacts.
Import ListNotations.
Open Scope string_scope.

(** *** Structs for the examples *)
Definition bfield (x : string) : field := bare_field x "T".
(** a must be set, b is optional, c is lazy, d has a default, e has no setter, g must be
    set. *)
Definition sample_fields : list field :=
  [bfield "a"; put_f_optional (Some true) (bfield "b"); put_f_lazy h_on (bfield "c");
   put_f_default (def_val "5") (bfield "d"); put_f_builder bld_off (bfield "e"); bfield "g"].
Definition sample : sctx := ctx_of (put_s_builder bld_on plain_s) sample_fields.
Definition sample_sync : sctx := ctx_of (put_s_builder bld_on sync_s) sample_fields.
Definition fives (v : string) : nat := if String.eqb v "5" then 5 else 0.
Definition no_post (o : object) : outcome object nat := BPanic.
(** Adds a field to the object, or fails if the first field holds 0. *)
Definition seal (o : object) : outcome object nat :=
  match o with
  | (_, VT 0) :: _ => BErr 9
  | _ => BOk (("sealed", VUnit) :: o)
  end.
Definition bld_post (err : option (list string)) : option builder :=
  Some (mk_builder helper_default None None None None None (Some None) err).
Definition sample_post : sctx := ctx_of (put_s_builder (bld_post (Some ["E"])) plain_s) sample_fields.
Definition played (c : sctx) (post : object -> outcome object nat) (l : list bact)
  : option (list (bres * list object)) :=
  option_map fst (build_run 1 fives c post l new_builder).
Ltac each_field :=
  let f := fresh "f" in let H := fresh "H" in
  intros f H; vm_compute in H;
  repeat (destruct H as [<-|H]; [try (eexists; eexists; split); vm_compute; reflexivity|]); destruct H.
Ltac met :=
  repeat match goal with |- _ /\ _ => split end; try nodup; try each_field; try (vm_compute; reflexivity).

(** ** C19 *)

(** Any sequence of setter calls and build() calls is answered as the form says. *)
Theorem C19_builder_refines : forall dflt user c post l rs g',
  NoDup (map f_ident (all_fields c)) -> generated c ->
  spec_forms (entries dflt user c) l blank = Some (rs, g') ->
  exists qs b', build_run dflt user c post l new_builder = Some (qs, b') /\
    Forall2 (answers c post) qs rs /\ shows_form b' g'.
Proof. intros. now apply histories_refine. Qed.
(** The setters that exist are exactly those the form offers. *)
Theorem C19_setters_offered : forall dflt user c post l,
  NoDup (map f_ident (all_fields c)) -> generated c ->
  (build_run dflt user c post l new_builder = None <->
   spec_forms (entries dflt user c) l blank = None).
Proof.
  intros dflt user c post l Hn Hg. split; [|apply forms_stuck]. intros H.
  destruct (spec_forms (entries dflt user c) l blank) as [[rs g']|] eqn:E; [|reflexivity].
  destruct (histories_refine dflt user c post Hn Hg l rs g' E) as (? & ? & R & _). congruence.
Qed.
(** build() succeeds exactly if every field that must be set was set. *)
Theorem C19_success_iff : forall dflt user c post l r ps b',
  NoDup (map f_ident (all_fields c)) -> generated c -> has_post_build c = false ->
  build_run dflt user c post (sets l ++ [BBuild]) new_builder = Some ([(r, ps)], b') ->
  ((exists o, r = BDone o) <->
   (forall f, In f (builder_input c) -> must_be_set dflt user c f = true -> In (f_ident f) (map fst l))).
Proof. intros. eapply success_iff; eauto. Qed.
(** Full statement: otherwise the error names the first field that must be set and was
    not, in order of declaration.  Missing: a field marked builder(off, "name") is not
    checked unless it is required, see C19_unchecked_refuted. *)
Theorem C19_names_first_missing_partial : forall dflt user c post l r ps b' x,
  NoDup (map f_ident (all_fields c)) -> generated c -> no_named_off c ->
  build_run dflt user c post (sets l ++ [BBuild]) new_builder = Some ([(r, ps)], b') ->
  (r = BMissing x <->
   first_field c (fun f => must_be_set dflt user c f = true /\ ~ In (f_ident f) (map fst l)) x).
Proof. intros. eapply missing_named; eauto. Qed.
(** Without builder(off, "name") the checked fields are those that must be set. *)
Theorem C19_checked_iff_must : forall dflt user c f, no_named_off c -> In f (builder_input c) ->
  (is_checked dflt user c f <-> must_be_set dflt user c f = true).
Proof. intros. now apply checked_must. Qed.
(** In general the error names the first checked field that was not set. *)
Theorem C19_names_first_checked : forall dflt user c post l r ps b' x,
  NoDup (map f_ident (all_fields c)) -> generated c ->
  build_run dflt user c post (sets l ++ [BBuild]) new_builder = Some ([(r, ps)], b') ->
  (r = BMissing x <->
   first_field c (fun f => is_checked dflt user c f /\ ~ In (f_ident f) (map fst l)) x).
Proof. intros. eapply checked_missing; eauto. Qed.
Example C19_case :
  (NoDup (map f_ident (all_fields sample)) /\ generated sample /\ no_named_off sample /\
   NoDup (map f_ident (all_fields sample_sync)) /\ generated sample_sync /\ no_named_off sample_sync) /\
  has_post_build sample = false /\
  map (must_be_set 1 fives sample) (builder_input sample) = [true; false; false; false; false; true] /\
  spec_forms (entries 1 fives sample) [BSet "b" 7; BBuild; BSet "a" 3; BBuild; BSet "g" 4; BBuild] blank
    <> None /\
  option_map fst
    (spec_forms (entries 1 fives sample) [BSet "b" 7; BBuild; BSet "a" 3; BBuild; BSet "g" 4; BBuild] blank)
  = Some [Refused "a"; Refused "g";
          Handed [("a", Some 3); ("b", Some 7); ("c", None); ("d", Some 5); ("e", Some 1); ("g", Some 4)]] /\
  played sample no_post [BSet "b" 7; BBuild; BSet "a" 3; BBuild; BSet "g" 4; BBuild] =
    Some [(BMissing "a", []); (BMissing "g", []);
          (BDone [("a", VT 3); ("b", VSome (VT 7)); ("c", VOnce None); ("d", VT 5); ("e", VT 1);
                  ("g", VT 4)], [])] /\
  played sample no_post [BSet "e" 7] = None /\ played sample_sync no_post [BSet "e" 7] = None.
Proof. met. Qed.

Definition named_off_field (x : string) : field :=
  put_f_builder (Some (bld_with (mk_helper true (Some (mk_strarg false (Some "with_it"))) None None None)))
    (bfield x).
Definition accepted (c : sctx) : Prop :=
  sargs_errors (c_args c) = [] /\ (forall f, In f (c_input_fields c) -> field_errors f = []) /\
  NoDup (map f_ident (all_fields c)) /\ generated c.
Theorem C19_unchecked_refuted : exists c l f r b', accepted c /\ has_post_build c = false /\
  In f (builder_input c) /\ must_be_set 1 fives c f = true /\ ~ In (f_ident f) (map fst l) /\
  build_run 1 fives c no_post (sets l ++ [BBuild]) new_builder = Some ([(r, [])], b') /\
  r <> BMissing (f_ident f).
Proof.
  exists (ctx_of (put_s_builder bld_on plain_s) [bfield "a"; named_off_field "b"]), [("a", 3)], (named_off_field "b").
  exists BPanicked. eexists. split; [unfold accepted; met|]. split; [reflexivity|]. split; [right; now left|].
  split; [reflexivity|]. split; [intros [H|[]]; discriminate H|]. split; [vm_compute; reflexivity|discriminate].
Qed.

(** ** C20 *)

(** A build() that reports a missing field, anywhere in a history, might as well not have
    been there: all other answers and the builder in the end are the same without it.  In
    particular setting the missing field afterwards is as good as setting it before. *)
Theorem C20_failed_build_has_no_effect : forall dflt user c post l1 l2 rs1 b1 x ps rs2 b2,
  build_run dflt user c post l1 new_builder = Some (rs1, b1) ->
  build_run dflt user c post (l1 ++ BBuild :: l2) new_builder =
    Some ((rs1 ++ (BMissing x, ps) :: rs2)%list, b2) ->
  ps = [] /\ build_run dflt user c post (l1 ++ l2) new_builder = Some ((rs1 ++ rs2)%list, b2).
Proof. intros. eapply failed_build_skipped; eauto. Qed.
Example C20_case :
  let l1 := [BSet "b" 7; BSet "g" 4] in let l2 := [BSet "a" 3; BBuild] in
  played sample no_post l1 = Some [] /\
  played sample no_post (l1 ++ BBuild :: l2) = Some [(BMissing "a", []);
    (BDone [("a", VT 3); ("b", VSome (VT 7)); ("c", VOnce None); ("d", VT 5); ("e", VT 1); ("g", VT 4)], [])] /\
  played sample no_post (l1 ++ l2) = Some [
    (BDone [("a", VT 3); ("b", VSome (VT 7)); ("c", VOnce None); ("d", VT 5); ("e", VT 1); ("g", VT 4)], [])].
Proof. met. Qed.

(** ** C21 *)

(** Every field of the object holds the last value given for it, in the storage of its
    type; without one, the content the field has of its own. *)
Theorem C21_last_setter_wins : forall dflt user c post l o ps b',
  NoDup (map f_ident (all_fields c)) -> generated c -> has_post_build c = false ->
  build_run dflt user c post (sets l ++ [BBuild]) new_builder = Some ([(BDone o, ps)], b') ->
  Forall2 (fun f q => fst q = f_ident f /\
    exists t k, field_type c f = GOk t /\ rep t k = Some (snd q) /\
      match last_given l (f_ident f) with
      | Some n => k = Some n
      | None => own_content dflt user c f = Some k
      end) (builder_input c) o.
Proof. intros. eapply fields_hold_last; eauto. Qed.
(** Setters of different fields can be exchanged anywhere in a history. *)
Theorem C21_setters_commute : forall dflt user c post l1 x n y m l2 rs b', x <> y ->
  build_run dflt user c post (l1 ++ BSet x n :: BSet y m :: l2) new_builder = Some (rs, b') ->
  exists b'', build_run dflt user c post (l1 ++ BSet y m :: BSet x n :: l2) new_builder = Some (rs, b'') /\
    forall z, b' z = b'' z.
Proof. intros. eapply histories_commute; eauto. Qed.
Example C21_case :
  let l := [("a", 3); ("c", 8); ("g", 1); ("a", 4); ("d", 6)] in
  played sample_sync no_post (sets l ++ [BBuild]) =
    Some [(BDone [("a", VT 4); ("b", VLock false VNone); ("c", VProxy false (Some (VT 8))); ("d", VT 6);
                  ("e", VT 1); ("g", VT 1)], [])] /\
  map (last_given l) ["a"; "b"; "c"; "d"; "e"; "g"] = [Some 4; None; Some 8; Some 6; None; Some 1] /\
  map (own_content 1 fives sample_sync) (builder_input sample_sync) =
    [None; Some None; Some None; Some (Some 5); Some (Some 1); None] /\
  played sample_sync no_post [BSet "a" 4; BSet "g" 1; BSet "c" 8; BSet "d" 6; BBuild] =
  played sample_sync no_post [BSet "a" 4; BSet "c" 8; BSet "g" 1; BSet "d" 6; BBuild].
Proof. met. Qed.

(** ** C22 *)

(** Without a field marked builder(off, "name") a build() that compiles panics only if
    post_build does (or, where it is to return the struct, cannot). *)
Theorem C22_panics_only_in_post_build : forall dflt user c post p l qs b' r ps,
  NoDup (map f_ident (all_fields c)) -> generated c -> no_named_off c -> build_compiles c p = true ->
  build_run dflt user c post l new_builder = Some (qs, b') -> In (r, ps) qs ->
  r <> BStuck /\
  (r = BPanicked -> has_post_build c = true /\ exists o, ps = [o] /\ forall o', post o <> BOk o').
Proof. intros. eapply panic_means_post; eauto. Qed.
Example C22_case :
  generated sample_post /\ no_named_off sample_post /\ NoDup (map f_ident (all_fields sample_post)) /\
  build_compiles sample_post true = true /\ build_compiles sample false = true /\
  played sample_post seal [BBuild; BSet "a" 0; BSet "g" 2; BBuild] =
    Some [(BMissing "a", []);
          (BFailed 9, [[("a", VT 0); ("b", VNone); ("c", VOnce None); ("d", VT 5); ("e", VT 1); ("g", VT 2)]])] /\
  played sample_post no_post [BSet "a" 0; BSet "g" 2; BBuild] =
    Some [(BPanicked, [[("a", VT 0); ("b", VNone); ("c", VOnce None); ("d", VT 5); ("e", VT 1); ("g", VT 2)]])].
Proof. met. Qed.
(** In general it panics exactly if all checks pass while a field without content of its
    own was not set; that field is then marked builder(off, "name"). *)
Theorem C22_panics_iff : forall dflt user c post l r ps b',
  NoDup (map f_ident (all_fields c)) -> generated c -> has_post_build c = false ->
  build_run dflt user c post (sets l ++ [BBuild]) new_builder = Some ([(r, ps)], b') ->
  (r = BPanicked <->
   (forall f, In f (builder_input c) -> is_checked dflt user c f -> In (f_ident f) (map fst l)) /\
   exists f, In f (builder_input c) /\ own_content dflt user c f = None /\ ~ In (f_ident f) (map fst l)).
Proof. intros. eapply panics_iff; eauto. Qed.
(** So with such a field build() may panic. *)
Theorem C22_named_off_refuted : exists c l b', accepted c /\ has_post_build c = false /\
  build_run 1 fives c no_post (sets l ++ [BBuild]) new_builder = Some ([(BPanicked, [])], b').
Proof.
  exists (ctx_of (put_s_builder bld_on plain_s) [bfield "a"; named_off_field "b"]), [("a", 3)]. eexists.
  unfold accepted. met.
Qed.
Example C22_panics_iff_case :
  let c := ctx_of (put_s_builder bld_on plain_s) [bfield "a"; named_off_field "b"] in
  played c no_post [BSet "a" 3; BSet "b" 4; BBuild; BBuild; BSet "a" 5; BBuild; BBuild] =
    Some [(BDone [("a", VT 3); ("b", VT 4)], []); (BMissing "a", []); (BPanicked, []); (BMissing "a", [])].
Proof. met. Qed.

(** ** C23 *)

(** Some sequence of setters makes build() succeed exactly if every required field has a
    setter. *)
Theorem C23_can_succeed_iff : forall dflt user c post,
  NoDup (map f_ident (all_fields c)) -> generated c -> has_post_build c = false ->
  ((exists l o b', build_run dflt user c post (sets l ++ [BBuild]) new_builder = Some ([(BDone o, [])], b')) <->
   (forall f, In f (builder_input c) -> is_builder_required c f = true -> has_setter c f = true)).
Proof.
  intros dflt user c post Hn Hg Hp. split; [|now apply succeeds_if].
  intros (l & o & b' & H) f Hf Hr. destruct (has_setter c f) eqn:Hs; [reflexivity|].
  destruct (never_succeeds dflt user c post Hn Hg f Hf Hr Hs _ _ _ H (BDone o) []) as [x E]; [now left|discriminate].
Qed.
Example C23_case :
  let c := ctx_of (put_s_builder bld_required plain_s) [bfield "a"; named_off_field "b"] in
  accepted c /\ has_post_build c = false /\
  map (is_builder_required c) (builder_input c) = [true; true] /\
  map (has_setter c) (builder_input c) = [true; true] /\
  played c no_post [BSet "a" 3; BBuild; BSet "b" 4; BBuild] =
    Some [(BMissing "b", []); (BDone [("a", VT 3); ("b", VT 4)], [])].
Proof. cbv zeta. unfold accepted. met. Qed.
(** [builder(required)] for the struct and [builder(off)] for a field: no history
    succeeds. *)
Theorem C23_required_off_refuted : exists c, accepted c /\ has_post_build c = false /\
  forall dflt user post l qs b' r ps, build_run dflt user c post l new_builder = Some (qs, b') ->
    In (r, ps) qs -> exists x, r = BMissing x.
Proof.
  exists (ctx_of (put_s_builder bld_required plain_s) [bfield "a"; put_f_builder bld_off (bfield "b")]).
  assert (A : accepted (ctx_of (put_s_builder bld_required plain_s) [bfield "a"; put_f_builder bld_off (bfield "b")]))
    by (unfold accepted; met).
  split; [exact A|]. split; [reflexivity|]. destruct A as (_ & _ & Hn & Hg).
  intros dflt user post l qs b' r ps H I.
  eapply (never_succeeds dflt user _ post Hn Hg (put_f_builder bld_off (bfield "b"))); eauto.
  right. now left.
Qed.

(** ** C24 *)

(** After a success, and also once post_build was called, the builder cannot be told from
    a new one: nothing given before is left, so nothing is delivered twice. *)
Theorem C24_like_new : forall dflt user c post l rs r ps b',
  NoDup (map f_ident (all_fields c)) -> generated c ->
  build_run dflt user c post (l ++ [BBuild]) new_builder = Some ((rs ++ [(r, ps)])%list, b') ->
  (exists o, r = BDone o) \/ ps <> [] ->
  (forall x, b' x = new_builder x) /\
  (forall l2 rs2 b2, build_run dflt user c post l2 b' = Some (rs2, b2) ->
    exists b3, build_run dflt user c post l2 new_builder = Some (rs2, b3) /\ forall x, b2 x = b3 x).
Proof. intros. split; [eapply drains; eauto|eapply like_new; eauto]. Qed.
(** An immediate second build() fails on the first checked field if there is one; if no
    field must be set it yields an object with no content but the fields' own; in the
    remaining case (a field that must be set and is not checked) it panics. *)
Theorem C24_second_build : forall dflt user c post l rs o ps r2 ps2 b',
  NoDup (map f_ident (all_fields c)) -> generated c -> has_post_build c = false ->
  build_run dflt user c post (l ++ [BBuild; BBuild]) new_builder =
    Some ((rs ++ [(BDone o, ps); (r2, ps2)])%list, b') ->
  (forall x, first_field c (is_checked dflt user c) x -> r2 = BMissing x) /\
  ((forall f, In f (builder_input c) -> must_be_set dflt user c f = false) ->
   exists o2, r2 = BDone o2 /\
   Forall2 (fun f q => fst q = f_ident f /\ exists t k, field_type c f = GOk t /\
     own_content dflt user c f = Some k /\ rep t k = Some (snd q)) (builder_input c) o2) /\
  ((forall f, In f (builder_input c) -> ~ is_checked dflt user c f) ->
   (exists f, In f (builder_input c) /\ must_be_set dflt user c f = true) -> r2 = BPanicked).
Proof.
  intros dflt user c post l rs o ps r2 ps2 b' Hn Hg Hp H.
  destruct (second_build dflt user c post Hn Hg l rs o ps r2 ps2 b' H) as [b3 R].
  split; [|split].
  - intros x F. eapply checked_missing; eauto.
    destruct F as (a & f & b & ? & ? & ? & Q). exists a, f, b. repeat split; auto.
    intros f' Hf' [M _]. exact (Q f' Hf' M).
  - intros N. edestruct (success_iff dflt user c post Hn Hg Hp [] r2 ps2 b3 R) as [_ S].
    destruct S as [o2 E].
    { intros f Hf M. rewrite (N f Hf) in M. discriminate. }
    exists o2. split; [exact E|]. rewrite E in R.
    pose proof (fields_hold_last dflt user c post Hn Hg Hp [] o2 ps2 b3 R) as F.
    clear -F. induction F as [|f q l1 l2 (E & t & k & Ht & Hr & Hm) F IH]; constructor; auto.
    split; [exact E|]. exists t, k. auto.
  - intros N (f & Hf & M). apply (panics_iff dflt user c post Hn Hg Hp [] r2 ps2 b3 R). split.
    + intros f' Hf' K. destruct (N f' Hf' K).
    + exists f. repeat split; auto. unfold must_be_set in M. unfold is_checked in N.
      destruct (is_builder_required c f) eqn:Q; [destruct (N f Hf); auto|]. cbn in M.
      destruct (own_content dflt user c f); [rewrite andb_false_r in M; discriminate|reflexivity].
Qed.
Example C24_case :
  let c := ctx_of (put_s_builder bld_on plain_s)
    [put_f_default (def_val "5") (bfield "d"); put_f_optional (Some true) (bfield "b"); put_f_lazy h_on (bfield "c")] in
  accepted c /\ no_named_off c /\ has_post_build c = false /\
  map (must_be_set 1 fives c) (builder_input c) = [false; false; false] /\
  played c no_post [BSet "d" 1; BSet "b" 2; BSet "c" 3; BBuild; BBuild] =
    Some [(BDone [("d", VT 1); ("b", VSome (VT 2)); ("c", VOnce (Some (VT 3)))], []);
          (BDone [("d", VT 5); ("b", VNone); ("c", VOnce None)], [])] /\
  option_map (fun r => map fst (tl r)) (played sample no_post [BSet "a" 3; BSet "b" 7; BSet "g" 4; BBuild; BBuild])
    = Some [BMissing "a"].
Proof. cbv zeta. unfold accepted. met. Qed.

(** ** C25 *)

(** [p]: does post_build return a Result.  Whatever happened before, build() either
    reports a missing field without calling post_build, or panics without calling it (only
    with builder(off, "name"), C22), or calls it exactly once, with an object that has all
    the fields, and returns what it returned. *)
Theorem C25_called_once : forall dflt user c post p l rs r ps b',
  NoDup (map f_ident (all_fields c)) -> generated c ->
  build_compiles c p = true -> has_post_build c = true ->
  build_run dflt user c post (l ++ [BBuild]) new_builder = Some ((rs ++ [(r, ps)])%list, b') ->
  (exists x, r = BMissing x /\ ps = []) \/
  (r = BPanicked /\ ps = [] /\ ~ no_named_off c) \/
  (exists o, ps = [o] /\ map fst o = map f_ident (builder_input c) /\
     r = match post o with
         | BOk o' => BDone o'
         | BErr e => if p then BFailed e else BPanicked
         | BPanic => BPanicked
         end).
Proof. intros. eapply post_build_once; eauto. Qed.
(** It is called exactly if every field that must be set was set, and the object it gets
    holds the values given. *)
Theorem C25_called_iff : forall dflt user c post p l r ps b',
  NoDup (map f_ident (all_fields c)) -> generated c ->
  build_compiles c p = true -> has_post_build c = true ->
  build_run dflt user c post (sets l ++ [BBuild]) new_builder = Some ([(r, ps)], b') ->
  (List.length ps = 1 <->
   (forall f, In f (builder_input c) -> must_be_set dflt user c f = true -> In (f_ident f) (map fst l))) /\
  (forall o, ps = [o] -> Forall2 (fun f q => fst q = f_ident f /\
     exists t k, field_type c f = GOk t /\ rep t k = Some (snd q) /\
       match last_given l (f_ident f) with
       | Some n => k = Some n
       | None => own_content dflt user c f = Some k
       end) (builder_input c) o).
Proof. intros. eapply post_build_called; eauto. Qed.
Theorem C25_only_if_asked : forall dflt user c post l qs b' r ps,
  NoDup (map f_ident (all_fields c)) -> generated c -> has_post_build c = false ->
  build_run dflt user c post l new_builder = Some (qs, b') -> In (r, ps) qs -> ps = [].
Proof. intros. eapply no_post_build; eauto. Qed.
Example C25_case :
  accepted sample_post /\ no_named_off sample_post /\ build_compiles sample_post true = true /\
  has_post_build sample_post = true /\
  played sample_post seal [BBuild; BSet "a" 3; BSet "g" 2; BBuild] =
    Some [(BMissing "a", []);
          (BDone [("sealed", VUnit); ("a", VT 3); ("b", VNone); ("c", VOnce None); ("d", VT 5); ("e", VT 1);
                  ("g", VT 2)],
           [[("a", VT 3); ("b", VNone); ("c", VOnce None); ("d", VT 5); ("e", VT 1); ("g", VT 2)]])].
Proof. unfold accepted. met. Qed.
(** build() compiles with some post_build unless the struct is reference counted and has
    both post_build and an error type. *)
Theorem C25_compiles_iff : forall c, (exists p, build_compiles c p = true) <->
  s_is_ref_counted (c_args c) && has_post_build c && has_error_type c = false.
Proof. exact compiles_iff. Qed.
(** [rc, builder(post_build, error(E))]: accepted by the macro, and no post_build
    compiles with it. *)
Theorem C25_rc_error_refuted : exists c, accepted c /\ has_post_build c = true /\
  forall p, build_compiles c p = false.
Proof.
  exists (ctx_of (put_s_rc h_on (put_s_builder (bld_post (Some ["E"])) plain_s)) [bfield "a"]).
  unfold accepted. met. intros []; reflexivity.
Qed.
Example C25_compiles_case :
  let c := ctx_of (put_s_rc h_on (put_s_builder (bld_post None) plain_s)) [bfield "a"] in
  accepted c /\ build_compiles c false = true /\ build_compiles c true = false /\ no_named_off c /\
  played c seal [BSet "a" 3; BBuild] =
    Some [(BDone [("sealed", VUnit); ("a", VT 3)], [[("a", VT 3)]])].
Proof. cbv zeta. unfold accepted. met. Qed.

Print Assumptions C19_builder_refines.
Print Assumptions C19_setters_offered.
Print Assumptions C19_success_iff.
Print Assumptions C19_names_first_missing_partial.
Print Assumptions C19_checked_iff_must.
Print Assumptions C19_names_first_checked.
Print Assumptions C19_unchecked_refuted.
Print Assumptions C20_failed_build_has_no_effect.
Print Assumptions C21_last_setter_wins.
Print Assumptions C21_setters_commute.
Print Assumptions C22_panics_only_in_post_build.
Print Assumptions C22_panics_iff.
Print Assumptions C22_named_off_refuted.
Print Assumptions C23_can_succeed_iff.
Print Assumptions C23_required_off_refuted.
Print Assumptions C24_like_new.
Print Assumptions C24_second_build.
Print Assumptions C25_called_once.
Print Assumptions C25_called_iff.
Print Assumptions C25_only_if_asked.
Print Assumptions C25_compiles_iff.
Print Assumptions C25_rc_error_refuted.
