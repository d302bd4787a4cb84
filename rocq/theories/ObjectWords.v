(** C89 from the words of the attributes, and which fields a shared object can have. *)
From Coq Require Import List Bool String.
From Verif Require Import ProxyTypes ArgsModel CtxModel ArgsSpec TokenSpec ParseInput ParseModel ParseSpec ParseForms GrammarSpec
  RustAst RustSem CommonGen PlainGen SyncGen StructGen CodegenSpec CodegenProofs FieldSpec FieldRun FieldStruct
  WrittenSpec WrittenProofs WrittenNames SignSpec SignProofs SignMethods SignTypes MadeSpec MadeProofs BehaveSpec BehaveModel BehaveProofs.
From Verif Require Import GuardCell ThreadSpec ThreadModel LockedModel ObjectSpec ObjectModel ObjectParts ObjectRecord.
Import ListNotations.
Open Scope string_scope.
Open Scope list_scope.

Lemma shareable_field c f o t ms : f_is_skipped f = false -> field_type c f = GOk t -> field_methods c f = GOk ms ->
  ((exists p, part_of c f o = Some p) <->
   (is_sync c f = true \/ (is_lazy c f = false /\ is_inner_mut c f = false)) /\ has_content (view_of c f) o = true).
Proof.
  intros Sk T M. unfold part_of. rewrite T, M. unfold field_type in T. unfold has_content, view_of.
  destruct (is_sync c f) eqn:Sy.
  - unfold sync_type in T. bind_in T. cbn [gbind] in T. injection T as <-. cbn. rewrite Sk.
    unfold maybe_locked, maybe_optional. cbn.
    destruct (is_lazy c f), (needs_lock c f), (is_optional c f), o; cbn; split; intros H;
      try (split; [left; reflexivity|reflexivity]); try (eexists; reflexivity); destruct H; discriminate.
  - injection T as <-. unfold plain_type. cbn.
    destruct (is_lazy c f), (is_inner_mut c f), (is_optional c f), o; cbn; split; intros H;
      try (split; [right; split; reflexivity|reflexivity]); try (eexists; reflexivity); try (destruct H as [? H]; discriminate H);
      try (destruct H as [[H|[H H']] ?]; discriminate); destruct H as [H ?]; discriminate.
Qed.

Section Words.
  Variable ft : features.
  Variables (c : sctx) (ss : list (list tok)) (all : list source).
  Hypothesis HS : struct_as ft ss (c_args c).
  Hypothesis HF : Forall2 (read_as ft) all (c_input_fields c).
  Variable its : list (source * facts * field * option nat).
  Hypothesis Told : forall x q f o, In (x, q, f, o) its ->
    read_as ft x f /\ ~ skipped x /\ facts_told ss all x q /\ forall k, method_for ss all x k -> sound_call q k = true.
  Definition told_roles : list role := map (fun e => let '(x, q, f, o) := e in mk_role (told_view q) (q_async q) o) its.
  Definition its_fields : list (field * option nat) := map (fun e => let '(x, q, f, o) := e in (f, o)) its.
  Lemma roles_told : roles_of c its_fields = told_roles.
  Proof.
    unfold roles_of, told_roles, its_fields. rewrite map_map. apply map_ext_in. intros [[[x q] f] o] I. cbn.
    destruct (Told x q f o I) as (R & _ & Q & _). rewrite (view_told ft c ss all HS HF x f R q Q).
    apply (w_facts ft c ss HS x f R all HF) in Q. subst q. reflexivity.
  Qed.
  Theorem w_object ps bld dflt user l s h t :
    map (fun x => part_of c (fst x) (snd x)) its_fields = map Some ps ->
    object_run dflt user ps l = Some (s, h, t) -> (forall i, oracle (bld i) (at_field i t)) ->
    exists ws, rruns bld dflt told_roles (rstart told_roles) h ws.
  Proof.
    intros P H O. rewrite <- roles_told. apply (object_history c its_fields ps bld dflt user) with (l := l) (s := s) (t := t); auto.
    - intros f o I. apply in_map_iff in I as ([[[x q] f'] o'] & E & I). injection E as -> ->.
      destruct (Told x q f o I) as (R & NS & _ & _). rewrite <- (f_skipped ft x f R), not_true_iff_false in NS. exact NS.
    - intros f o ms k I M K. apply in_map_iff in I as ([[[x q] f'] o'] & E & I). injection E as -> ->.
      destruct (Told x q f o I) as (R & _ & Q & So). apply (w_methods ft c ss all HS HF x f R k ms M) in K.
      exact (works_told ft c ss all HS HF x f R q k ms Q M K (So k K)).
  Qed.
End Words.
