(** C86 from the words of the attributes. *)
From Coq Require Import List Bool String.
From Verif Require Import ProxyTypes ArgsModel CtxModel ArgsSpec TokenSpec ParseInput ParseModel ParseSpec ParseForms GrammarSpec
  RustAst CommonGen StructGen CodegenSpec FieldSpec
  WrittenSpec WrittenProofs WrittenNames SignSpec SignProofs SignMethods SignTypes MadeSpec MadeProofs BehaveSpec BehaveModel BehaveProofs.
From Verif Require Import GuardCell ThreadSpec ThreadModel ThreadProofs.
Import ListNotations.
Open Scope string_scope.
Open Scope list_scope.

Section Words.
  Variable ft : features.
  Variables (c : sctx) (ss : list (list tok)) (all : list source).
  Hypothesis HS : struct_as ft ss (c_args c).
  Hypothesis HF : Forall2 (read_as ft) all (c_input_fields c).
  Variables (x : source) (f : field).
  Hypothesis R : read_as ft x f.
  Theorem w_threads q bld dflt alive ms o l th h t :
    ~ skipped x -> field_methods c f = GOk ms -> (on_in "rc" ss -> alive = true) ->
    facts_told ss all x q -> q_sync q = true -> q_lazy q = true -> (forall k, method_for ss all x k -> sound_call q k = true) ->
    together (q_async q) alive ms o l = Some (th, h, t) -> oracle bld t ->
    exists w, wruns bld dflt (told_view q) (q_async q) (wstart o) h w.
  Proof.
    intros NS M A Q Sy La So H O. rewrite <- (f_skipped ft x f R), not_true_iff_false in NS.
    rewrite (view_told ft c ss all HS HF x f R q Q).
    assert (Wk : forall k, In k (map m_kind ms) -> works c f k = true).
    { intros k I. apply (w_methods ft c ss all HS HF x f R k ms M) in I.
      exact (works_told ft c ss all HS HF x f R q k ms Q M I (So k I)). }
    pose proof Q as Q'. apply (w_facts ft c ss HS x f R all HF) in Q'. subst q.
    exact (proj1 (threads c f bld dflt alive ms Sy La NS M (fun K => A (proj1 (w_rc ft c ss HS) K)) Wk o l th h t H O)).
  Qed.
End Words.
