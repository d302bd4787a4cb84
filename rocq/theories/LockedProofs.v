(** The emitted methods of a locked field over either lock. *)
From Coq Require Import List Bool String Arith.
From Verif Require Import ProxyTypes ArgsModel CtxModel RustAst CommonGen PlainGen SyncGen StructGen CodegenSpec CodegenProofs
  FieldSpec FieldRun FieldStruct ThreadSpec ThreadProofs LockedModel LockedScripts LockedSim.
Import ListNotations.

(** Which fields have such a type. *)
Lemma locked_type c f t asy opt : field_type c f = GOk t -> lock_of t = Some (asy, opt) ->
  is_sync c f = true /\ is_lazy c f = false /\ needs_lock c f = true /\ f_is_skipped f = false /\
  is_async c f = asy /\ is_optional c f = opt.
Proof.
  unfold field_type. intros T L. destruct (is_sync c f) eqn:Sy.
  - unfold sync_type in T. bind_in T. cbn [gbind] in T. injection T as <-. cbn in L.
    destruct (f_is_skipped f); [discriminate L|]. destruct (is_lazy c f); [discriminate L|].
    unfold maybe_locked, maybe_optional in L. cbn in L. destruct (needs_lock c f), (is_optional c f); cbn in L; try discriminate L;
      injection L as <- <-; auto 10.
  - exfalso. injection T as <-. unfold plain_type in L. cbn in L.
    destruct (f_is_skipped f), (is_lazy c f), (is_optional c f), (is_inner_mut c f); discriminate L.
Qed.

Section Field.
Variables (c : sctx) (f : field).
Variable bld : nat -> outcome nat nat.
Variables (dflt : nat) (t : ty) (asy opt : bool) (ms : list mdecl).
Hypothesis Ty : field_type c f = GOk t.
Hypothesis Lo : lock_of t = Some (asy, opt).
Hypothesis M : field_methods c f = GOk ms.
Hypothesis Wk : forall k, In k (map m_kind ms) -> works c f k = true.

Lemma locked_view : view_of c f = mk_view (if opt then Maybe else Bare) Blocking (negb (is_clone c f || is_copy c f)).
Proof.
  destruct (locked_type _ _ _ _ _ Ty Lo) as (Sy & La & Lk & _ & _ & Op).
  unfold view_of. rewrite Sy. unfold sync_view. cbn. rewrite La, Lk, Op. reflexivity.
Qed.
Lemma methods_lstd m n : In m ms -> l_kind opt (m_kind m) = true /\
  alike (lscript asy opt m n) (lstd opt (negb (is_clone c f || is_copy c f)) (m_kind m) n).
Proof.
  destruct (locked_type _ _ _ _ _ Ty Lo) as (Sy & La & Lk & Sk & As & Op).
  intros Hin. pose proof M as M'. unfold field_methods in M'. rewrite Sy in M'.
  pose proof (Wk _ (in_map m_kind _ _ Hin)) as W. unfold works in W. rewrite Sy in W.
  apply andb_true_iff in W as [W Me]. apply andb_true_iff in W as [_ W]. rewrite <- As, <- Op.
  exact (lstd_ok (cfg_of c f) ms m n La Lk Sk M' Hin W Me).
Qed.
Lemma methods_lazy m : In m ms -> m_async m = true -> asy = true.
Proof.
  destruct (locked_type _ _ _ _ _ Ty Lo) as (Sy & _ & _ & _ & <- & _).
  pose proof M as M'. unfold field_methods in M'. rewrite Sy in M'. exact (fun I => async_method _ _ m M' I).
Qed.
Lemma has_start o : has_content (view_of c f) o = true -> opt = false -> o <> None.
Proof. rewrite locked_view. unfold has_content. cbn. intros H Op. rewrite Op in H. destruct o; [discriminate|discriminate H]. Qed.

Theorem crowds o l th h : has_content (view_of c f) o = true -> shared asy opt ms o l = Some (th, h) ->
  (exists w, wruns bld dflt (view_of c f) asy (wstart o) h w) /\ forall a, th a <> LDoing LWrong.
Proof.
  intros Hc H. unfold shared in H. destruct (lmoves _ _ _ _ l) as [[s h0]|] eqn:R; [|discriminate H]. injection H as <- <-.
  destruct (moves_linked asy opt _ bld dflt ms methods_lstd methods_lazy l _ _ _ _
    (linked_start asy opt _ bld dflt o (has_start o Hc)) R) as (w & W & L).
  rewrite locked_view. split; [eauto|]. intros a. eapply linked_sane, L.
Qed.
Theorem crowds_move o l th h a : has_content (view_of c f) o = true -> shared asy opt ms o l = Some (th, h) -> th a <> LIdle ->
  (exists b, shared asy opt ms o (l ++ [LGo b]) <> None) \/ exists b g, th b = LKeeping g.
Proof.
  intros Hc H N. unfold shared in *. destruct (lmoves _ _ _ _ l) as [[s h0]|] eqn:R; [|discriminate H]. injection H as <- <-.
  destruct (moves_linked asy opt _ bld dflt ms methods_lstd methods_lazy l _ _ _ _
    (linked_start asy opt _ bld dflt o (has_start o Hc)) R) as (w & W & L).
  destruct (can_go asy opt _ bld dflt ms methods_lstd s w a L N) as [[b G]|G]; [left|right; exact G].
  exists b. pose proof (moves_snoc _ _ _ _ _ _ _ _ R G) as Q. destruct (lmoves _ _ _ _ (l ++ [LGo b])) as [[? ?]|]; [discriminate|congruence].
Qed.
End Field.
