(** C94 from the words of the attributes. *)
From Coq Require Import List Bool String Arith Lia.
From Verif Require Import ProxyTypes ArgsModel CtxModel ArgsSpec TokenSpec ParseInput ParseModel ParseSpec ParseForms GrammarSpec
  RustAst RustSem CommonGen PlainGen SyncGen StructGen CodegenSpec CodegenProofs FieldSpec FieldRun FieldStruct
  WrittenSpec WrittenProofs WrittenNames SignSpec SignProofs SignMethods SignTypes MadeSpec MadeProofs
  BuilderSpec BuilderModel BuilderProofs BuilderFacts BehaveSpec BehaveModel BehaveProofs.
From Verif Require Import SerdeSpec SerdeModel SerdeProofs DocSpec DocProofs.
From Verif Require Import GuardCell ThreadSpec ThreadModel LockedModel ObjectSpec ObjectModel ObjectParts ObjectRecord ObjectWords
  LifeSpec LifeModel LifeProofs LifeRecord LifeWords WeakMem WeakObjectSpec WeakObjectModel WeakLifeSpec WeakLifeModel WeakLifeProofs WeakLifeRecord.
Import ListNotations.
Open Scope string_scope.
Open Scope list_scope.

Section Context.
  Variables (ft : features) (c : sctx) (ss : list (list tok)) (all : list source).
  Hypothesis HS : struct_as ft ss (c_args c).
  Hypothesis HF : Forall2 (read_as ft) all (c_input_fields c).
  Variables (dflt : nat) (user : string -> nat).
  Variable parts : list (FieldSpec.view * bool).
  Hypothesis Ce : cells_told ss all all parts.
  Hypothesis So : sound_words ss all.
  Lemma w_strong vs scenes vs' r : wlives dflt user c (builder_input c) vs scenes vs' r ->
    r = false /\ exists scenes', Forall2 (scene_as parts) scenes scenes' /\ lives dflt user c (builder_input c) vs scenes' vs' /\
      (Forall (makes_sense dflt parts) scenes -> Forall (makes_sense dflt parts) scenes').
  Proof.
    intros L. pose proof (proj1 (w_cells ft c ss all HS HF parts) Ce) as ->.
    destruct (weak_strong dflt user c (builder_input c) (w_unskipped c) (w_works ft c ss all HS HF So) vs scenes vs' r L) as (E & sc & A & B).
    split; [exact E|]. exists sc. split; [exact A|]. split; [exact B|]. exact (sense_as _ _ _ _ _ A).
  Qed.
  Theorem ww_built post l es rs g n ks : NoDup (map f_ident (all_fields c)) -> generated c -> has_post_build c = false ->
    form_told dflt user ss (combine (map f_ident (c_input_fields c)) all) es -> spec_forms es l blank = Some (rs, g) ->
    nth_error rs n = Some (Handed ks) ->
    exists qs b o, build_run dflt user c post l new_builder = Some (qs, b) /\ nth_error qs n = Some (BDone o, []) /\
      forall scenes vs' r, wlives dflt user c (builder_input c) (map snd o) scenes vs' r -> Forall (makes_sense dflt parts) scenes ->
      r = false /\ exists scenes' ks', Forall2 (scene_as parts) scenes scenes' /\ tale dflt parts (map snd ks) scenes' ks' /\ stores c (builder_input c) ks' vs'.
  Proof.
    intros D G Np W Sf Nt. destruct (w_built ft c ss all HS HF dflt user parts Ce So post l es rs g n ks D G Np W Sf Nt) as (qs & b & o & A & B & C).
    exists qs, b, o. split; [exact A|]. split; [exact B|]. intros scenes vs' r L Se. destruct (w_strong _ _ _ _ L) as (E & sc & S1 & S2 & S3).
    split; [exact E|]. destruct (C sc vs' S2 (S3 Se)) as (ks' & T & St). exists sc, ks'. auto.
  Qed.
  Theorem ww_default bld alive o ks scenes vs' r : default_object bld alive dflt user c (all_fields c) = Some o ->
    defaults_told dflt user ss all ks ->
    wlives dflt user c (builder_input c) (cell_values (all_fields c) o) scenes vs' r -> Forall (makes_sense dflt parts) scenes ->
    r = false /\ exists scenes' ks', Forall2 (scene_as parts) scenes scenes' /\ tale dflt parts ks scenes' ks' /\ stores c (builder_input c) ks' vs'.
  Proof.
    intros De W L Se. destruct (w_strong _ _ _ _ L) as (E & sc & S1 & S2 & S3). split; [exact E|].
    destruct (w_default ft c ss all HS HF dflt user parts Ce So bld alive o ks sc vs' De W S2 (S3 Se)) as (ks' & T & St). exists sc, ks'. auto.
  Qed.
  Theorem ww_documents named given bld bld' alive alive' ps ps' d o :
    with_serde ss -> NoDup (map f_ident (all_fields c)) -> from_compiles c -> into_compiles c ->
    defaults_make_sense named (fun f => given (f_ident f)) c ->
    places_told dflt user named given bld ss all (map f_ident (c_input_fields c)) ps ->
    places_told dflt user named given bld' ss all (map f_ident (c_input_fields c)) ps' ->
    deserialise bld alive dflt user named (fun f => given (f_ident f)) c d = RDone o ->
    exists r js, spec_reads (map slot_at ps) d = Some r /\
      let ks := map (fun p => comes_in (fst p) (snd p)) (combine ps r) in
      rewritten all ks js ks /\
      forall scenes vs' rc, wlives dflt user c (builder_input c) (cell_values (all_fields c) o) scenes vs' rc -> Forall (makes_sense dflt parts) scenes ->
      rc = false /\ exists scenes' js' ks', Forall2 (scene_as parts) scenes scenes' /\ tale dflt parts js scenes' js' /\ rewritten all ks js' ks' /\
        serialise bld' alive' dflt user c (with_cells (all_fields c) o vs') =
          if existsb (fun p => run_panics (fst p) (snd p)) (combine ps' ks') then WPanic
          else SerdeModel.WDone (doc_out (combine ps' ks')) (runs_out (combine ps' ks')).
  Proof.
    intros SD D FC IC Ms P1 P2 De.
    destruct (w_documents ft c ss all HS HF dflt user parts Ce So named given bld bld' SD D alive alive' ps ps' d o FC IC Ms P1 P2 De) as (r & js & A & B & C).
    exists r, js. split; [exact A|]. cbn zeta. split; [exact B|]. intros scenes vs' rc L Se. destruct (w_strong _ _ _ _ L) as (E & sc & S1 & S2 & S3).
    split; [exact E|]. destruct (C sc vs' S2 (S3 Se)) as (js' & ks' & T & Rw & Se'). exists sc, js', ks'. auto.
  Qed.
End Context.
