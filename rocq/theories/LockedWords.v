(** C87 from the words of the attributes. *)
From Coq Require Import List Bool String.
From Verif Require Import ProxyTypes ArgsModel CtxModel ArgsSpec TokenSpec ParseInput ParseModel ParseSpec ParseForms GrammarSpec
  RustAst CommonGen SyncGen StructGen CodegenSpec CodegenProofs FieldSpec
  WrittenSpec WrittenProofs WrittenNames SignSpec SignProofs SignMethods SignTypes MadeSpec MadeProofs BehaveSpec BehaveModel BehaveProofs.
From Verif Require Import ThreadSpec LockedModel LockedProofs.
Import ListNotations.
Open Scope string_scope.
Open Scope list_scope.

Section Words.
  Variable ft : features.
  Variables (c : sctx) (ss : list (list tok)) (all : list source).
  Hypothesis HS : struct_as ft ss (c_args c).
  Hypothesis HF : Forall2 (read_as ft) all (c_input_fields c).
  Variables (x : source) (f : field).
  Hypothesis R : read_as ft x f.
  Lemma w_lock q t : ~ skipped x -> facts_told ss all x q -> q_sync q = true -> q_lazy q = false -> q_locked q = true ->
    field_type c f = GOk t -> lock_of t = Some (q_async q, q_optional q).
  Proof.
    intros NS Q Sy La Lk T. rewrite <- (f_skipped ft x f R), not_true_iff_false in NS.
    apply (w_facts ft c ss HS x f R all HF) in Q. subst q. cbn in *. unfold field_type in T. rewrite Sy in T.
    unfold sync_type in T. bind_in T. cbn [gbind] in T. injection T as <-. cbn. unfold f_is_skipped. rewrite NS, La.
    unfold maybe_locked, maybe_optional. cbn. rewrite Lk. destruct (is_optional c f); reflexivity.
  Qed.
  Theorem w_crowds q bld dflt t ms o l th h :
    ~ skipped x -> field_type c f = GOk t -> field_methods c f = GOk ms ->
    facts_told ss all x q -> q_sync q = true -> q_lazy q = false -> q_locked q = true ->
    (forall k, method_for ss all x k -> sound_call q k = true) -> has_content (told_view q) o = true ->
    shared (q_async q) (q_optional q) ms o l = Some (th, h) ->
    exists w, wruns bld dflt (told_view q) (q_async q) (wstart o) h w.
  Proof.
    intros NS T M Q Sy La Lk So Hc H. pose proof (w_lock q t NS Q Sy La Lk T) as Lo.
    rewrite (view_told ft c ss all HS HF x f R q Q) in *.
    assert (Wk : forall k, In k (map m_kind ms) -> works c f k = true).
    { intros k I. apply (w_methods ft c ss all HS HF x f R k ms M) in I.
      exact (works_told ft c ss all HS HF x f R q k ms Q M I (So k I)). }
    exact (proj1 (crowds c f bld dflt t _ _ ms T Lo M Wk o l th h Hc H)).
  Qed.
End Words.
