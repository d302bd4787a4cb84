(** Property C97: copying, comparing and printing objects. *)
From Coq Require Import List Bool String Arith Lia.
From Verif Require Import ProxyTypes ArgsModel CtxModel ArgsFixtures ArgsProps CodegenProps GuardCell RustAst CommonGen StructGen
  CodegenSpec ArgsSpec TokenSpec ParseInput ParseModel ParseSpec GrammarSpec GrammarProps WrittenSpec WrittenProofs SignSpec FieldSpec FieldRun FieldStruct FieldProps BuilderModel SerdeModel ThreadSpec ObjectSpec LifeSpec LifeModel LifeRecord LifeWords
  ThreadProps SerdeProps LifeProps SessionSpec SessionModel SessionProofs SessionProps DupSpec DupModel DupProofs.
Import ListNotations.
Open Scope string_scope.
Open Scope list_scope.

(** ** C97 *)
(** After any session with an object, guards kept or not, clone ends as copying the record of
    cells does, and what it gives stores what the cells hold (so that C93, C94 and C96 say how
    the copy goes on). *)
Theorem C97_clone : forall bld dflt user c fs l ks ws os us,
  (forall f, In f fs -> f_is_skipped f = false) ->
  (forall f ms k, In f fs -> field_methods c f = GOk ms -> In k (map m_kind ms) -> works c f k = true) ->
  stores c fs ks ws -> session_offered c fs l = true ->
  spec_session bld dflt (map (view_of c) fs) l (at_start ks) = Some (os, us) ->
  exists ius, impl_session bld dflt user c fs l (all_fresh ws) = Some (os, ius) /\
    match spec_copy (map (view_of c) fs) us with
    | Gives js => exists vs, impl_clone ius = Some (Gives vs) /\ stores c fs js vs
    | Breaks => impl_clone ius = Some Breaks
    | Hangs => impl_clone ius = Some Hangs
    end.
Proof.
  intros bld dflt user c fs l ks ws os us Sk Wk St Of Sp.
  destruct (session_sim bld dflt user c fs Sk Wk l _ _ os us Of (start_stand c fs ks ws St) Sp) as (ius & R & Se).
  exists ius. split; [exact R|]. exact (clone_all c fs ius us Sk Se).
Qed.
Print Assumptions C97_clone.
(** There is a copy exactly if no guard that writes is kept, and it holds what the object
    holds. *)
Theorem C97_copies : forall bld dflt user c fs l ks ws os us,
  (forall f, In f fs -> f_is_skipped f = false) ->
  (forall f ms k, In f fs -> field_methods c f = GOk ms -> In k (map m_kind ms) -> works c f k = true) ->
  stores c fs ks ws -> session_offered c fs l = true ->
  spec_session bld dflt (map (view_of c) fs) l (at_start ks) = Some (os, us) ->
  exists ius, impl_session bld dflt user c fs l (all_fresh ws) = Some (os, ius) /\
    ((exists vs, impl_clone ius = Some (Gives vs)) <-> forall u, In u us -> writing (u_guards u) = false) /\
    (forall vs, impl_clone ius = Some (Gives vs) -> stores c fs (map u_val us) vs).
Proof.
  intros bld dflt user c fs l ks ws os us Sk Wk St Of Sp.
  destruct (session_sim bld dflt user c fs Sk Wk l _ _ os us Of (start_stand c fs ks ws St) Sp) as (ius & R & Se).
  exists ius. split; [exact R|]. pose proof (clone_all c fs ius us Sk Se) as H. destruct (copy_iff c fs ius us Se) as [A B].
  unfold as_told in H. destruct (spec_copy (map (view_of c) fs) us) as [js| |] eqn:E.
  - destruct H as (vs & H & S0). destruct (A js eq_refl) as [-> F]. split; [split; [intros _; exact F|intros _; exists vs; exact H]|].
    intros vs' H'. rewrite H in H'. injection H' as <-. exact S0.
  - split; [split; [intros (vs & G); congruence|intros F; specialize (B F); discriminate B]|]. intros vs G. congruence.
  - split; [split; [intros (vs & G); congruence|intros F; specialize (B F); discriminate B]|]. intros vs G. congruence.
Qed.
Print Assumptions C97_copies.
(** Two objects of one struct (or one and itself), each after a session of its own: [==] ends as
    comparing the records up to the first difference does. *)
Theorem C97_equal : forall bld dflt user c fs l ks ws os us l' ks' ws' os' us',
  (forall f, In f fs -> f_is_skipped f = false) ->
  (forall f ms k, In f fs -> field_methods c f = GOk ms -> In k (map m_kind ms) -> works c f k = true) ->
  (forall f, In f fs -> v_disc (view_of c f) <> Solo) ->
  stores c fs ks ws -> session_offered c fs l = true -> spec_session bld dflt (map (view_of c) fs) l (at_start ks) = Some (os, us) ->
  stores c fs ks' ws' -> session_offered c fs l' = true -> spec_session bld dflt (map (view_of c) fs) l' (at_start ks') = Some (os', us') ->
  exists ius jus, impl_session bld dflt user c fs l (all_fresh ws) = Some (os, ius) /\
    impl_session bld dflt user c fs l' (all_fresh ws') = Some (os', jus) /\
    impl_eq ius jus = Some (spec_equal (map (view_of c) fs) us us') /\
    ((forall u, In u us -> writing (u_guards u) = false) -> (forall u, In u us' -> writing (u_guards u) = false) ->
     (impl_eq ius jus = Some (Gives true) <-> map u_val us = map u_val us')).
Proof.
  intros bld dflt user c fs l ks ws os us l' ks' ws' os' us' Sk Wk NS St Of Sp St' Of' Sp'.
  destruct (session_sim bld dflt user c fs Sk Wk l _ _ os us Of (start_stand c fs ks ws St) Sp) as (ius & R & Se).
  destruct (session_sim bld dflt user c fs Sk Wk l' _ _ os' us' Of' (start_stand c fs ks' ws' St') Sp') as (jus & R' & Se').
  exists ius, jus. split; [exact R|]. split; [exact R'|]. pose proof (eq_all c fs ius us jus us' Sk NS Se Se') as H.
  assert (E : impl_eq ius jus = Some (spec_equal (map (view_of c) fs) us us')).
  { unfold as_told in H. destruct (spec_equal (map (view_of c) fs) us us') as [b| |]; [destruct H as (b' & -> & <-); reflexivity|exact H|exact H]. }
  split; [exact E|]. intros F G.
  destruct (equal_iff (map (view_of c) fs) us us' ltac:(rewrite map_length; exact (proj1 (proj2 Se))) ltac:(rewrite map_length; exact (proj1 (proj2 Se'))) F G) as (b & Q & I).
  rewrite E, Q, <- I. split; congruence.
Qed.
Print Assumptions C97_equal.
(** A copy is equal to the object it was made from. *)
Theorem C97_copy_equal : forall bld dflt user c fs l ks ws os us,
  (forall f, In f fs -> f_is_skipped f = false) ->
  (forall f ms k, In f fs -> field_methods c f = GOk ms -> In k (map m_kind ms) -> works c f k = true) ->
  (forall f, In f fs -> v_disc (view_of c f) <> Solo) ->
  stores c fs ks ws -> session_offered c fs l = true ->
  spec_session bld dflt (map (view_of c) fs) l (at_start ks) = Some (os, us) ->
  exists ius, impl_session bld dflt user c fs l (all_fresh ws) = Some (os, ius) /\
    forall vs, impl_clone ius = Some (Gives vs) -> impl_eq ius (all_fresh vs) = Some (Gives true).
Proof.
  intros bld dflt user c fs l ks ws os us Sk Wk NS St Of Sp.
  destruct (C97_copies bld dflt user c fs l ks ws os us Sk Wk St Of Sp) as (ius & R & I & C).
  exists ius. split; [exact R|]. intros vs H. pose proof (C vs H) as Sv. assert (F : forall u, In u us -> writing (u_guards u) = false) by (apply I; exists vs; exact H).
  destruct (C97_equal bld dflt user c fs l ks ws os us [] (map u_val us) vs [] (at_start (map u_val us)) Sk Wk NS St Of Sp Sv eq_refl eq_refl) as (ius' & jus & R1 & R2 & _ & Q).
  rewrite R in R1. injection R1 as <-. injection R2 as <-. apply Q; [exact F| |].
  - intros u U. unfold at_start in U. apply in_map_iff in U as (k & <- & _). reflexivity.
  - unfold at_start. rewrite map_map. cbn. rewrite map_id. reflexivity.
Qed.
Print Assumptions C97_copy_equal.
(** Fields that are lazy and async have no [==]. *)
Theorem C97_async_not_compared : forall c f iu ju u w, f_is_skipped f = false -> stands c f iu u -> stands c f ju w -> v_disc (view_of c f) = Solo ->
  eq_field (i_st iu) (i_st ju) = None.
Proof. exact async_none. Qed.
Print Assumptions C97_async_not_compared.
(** Printing never panics, and hangs exactly if a lazy field of a sync or async struct is being
    written; other fields that are being written are shown as busy. *)
Theorem C97_debug : forall bld dflt user c fs l ks ws os us,
  (forall f, In f fs -> f_is_skipped f = false) ->
  (forall f ms k, In f fs -> field_methods c f = GOk ms -> In k (map m_kind ms) -> works c f k = true) ->
  stores c fs ks ws -> session_offered c fs l = true ->
  spec_session bld dflt (map (view_of c) fs) l (at_start ks) = Some (os, us) ->
  exists ius, impl_session bld dflt user c fs l (all_fresh ws) = Some (os, ius) /\ impl_fmt ius = Some (spec_show (map (view_of c) fs) us) /\
    impl_fmt ius <> Some Breaks /\
    (impl_fmt ius = Some Hangs <-> exists i f u, nth_error fs i = Some f /\ nth_error us i = Some u /\ writing (u_guards u) = true /\ is_lazy_view (view_of c f) = true).
Proof.
  intros bld dflt user c fs l ks ws os us Sk Wk St Of Sp.
  destruct (session_sim bld dflt user c fs Sk Wk l _ _ os us Of (start_stand c fs ks ws St) Sp) as (ius & R & Se).
  exists ius. split; [exact R|]. pose proof (fmt_all c fs ius us Sk Se) as H.
  assert (E : impl_fmt ius = Some (spec_show (map (view_of c) fs) us)).
  { unfold as_told in H. destruct (spec_show (map (view_of c) fs) us) as [b| |]; [destruct H as (b' & -> & <-); reflexivity|exact H|exact H]. }
  split; [exact E|]. rewrite E. destruct (show_ends c fs ius us Sk Se) as [A B]. split; [congruence|]. rewrite <- B. split; congruence.
Qed.
Print Assumptions C97_debug.
(** By the words of the attributes. *)
Theorem C97_written : forall ft c ss all bld dflt user parts l ks ws os us,
  struct_as ft ss (c_args c) -> Forall2 (read_as ft) all (c_input_fields c) -> cells_told ss all all parts -> sound_words ss all ->
  stores c (builder_input c) ks ws -> session_offered c (builder_input c) l = true ->
  spec_session bld dflt (map fst parts) l (at_start ks) = Some (os, us) ->
  exists ius, impl_session bld dflt user c (builder_input c) l (all_fresh ws) = Some (os, ius) /\
    ((exists vs, impl_clone ius = Some (Gives vs)) <-> forall u, In u us -> writing (u_guards u) = false) /\
    (forall vs, impl_clone ius = Some (Gives vs) -> stores c (builder_input c) (map u_val us) vs) /\
    impl_fmt ius = Some (spec_show (map fst parts) us) /\
    ((forall p, In p parts -> v_disc (fst p) <> Solo) -> impl_eq ius ius = Some (spec_equal (map fst parts) us us)).
Proof.
  intros ft c ss all bld dflt user parts l ks ws os us HS HF Ce So St Of Sp.
  pose proof (proj1 (w_cells ft c ss all HS HF parts) Ce) as ->.
  assert (V : map fst (cells_of c (builder_input c)) = map (view_of c) (builder_input c)) by (unfold cells_of; rewrite map_map; reflexivity).
  rewrite V in *.
  destruct (C97_copies bld dflt user c (builder_input c) l ks ws os us (w_unskipped c) (w_works ft c ss all HS HF So) St Of Sp) as (ius & R & A & B).
  destruct (C97_debug bld dflt user c (builder_input c) l ks ws os us (w_unskipped c) (w_works ft c ss all HS HF So) St Of Sp) as (ius' & R' & D & _).
  rewrite R in R'. injection R' as <-. exists ius. split; [exact R|]. split; [exact A|]. split; [exact B|]. split; [exact D|]. intros NS.
  assert (N : forall f, In f (builder_input c) -> v_disc (view_of c f) <> Solo).
  { intros f I. unfold cells_of in NS. exact (NS _ (in_map (fun g => (view_of c g, is_async c g)) _ f I)). }
  destruct (C97_equal bld dflt user c (builder_input c) l ks ws os us l ks ws os us (w_unskipped c) (w_works ft c ss all HS HF So) N St Of Sp St Of Sp)
    as (ius1 & jus1 & R1 & R2 & E & _).
  rewrite R in R1, R2. injection R1 as <-. injection R2 as <-. exact E.
Qed.
Print Assumptions C97_written.

(** ** Cases *)
(** The struct of C93 (its words are those of C96_case): while a and b are read the object is copied, printed and compared with
    one in which a is not set; while b is written it cannot be copied, is printed without b and
    still differs from the other in a. *)
Definition du_reads : list (nat * act) := [(1, ACall KReader 0 Keep); (0, ACall KAccessor 0 Keep)].
Definition du_writes : list (nat * act) := [(0, ACall KAccessor 0 Keep); (1, ACall KWriter 0 Keep)].
Definition du_all (r : option (list obs * list ist)) (js : list ist) :=
  option_map (fun x => (fst x, impl_clone (snd x), impl_eq (snd x) js, impl_fmt (snd x))) r.
Example C97_case :
  let fs := builder_input l_ctx in
  let go l := impl_session (fun _ => thirteen) 3 SerdeProps.five l_ctx fs l (all_fresh (l_first 3 9)) in
  let told l := option_map snd (spec_session (fun _ => thirteen) 3 (map (view_of l_ctx) fs) l (at_start [None; Some 3; Some 9])) in
  (forall f, In f fs -> f_is_skipped f = false) /\
  (forall f ms k, In f fs -> field_methods l_ctx f = GOk ms -> In k (map m_kind ms) -> works l_ctx f k = true) /\
  (forall f, In f fs -> v_disc (view_of l_ctx f) <> Solo) /\
  stores l_ctx fs [None; Some 3; Some 9] (l_first 3 9) /\
  session_offered l_ctx fs du_reads = true /\ session_offered l_ctx fs du_writes = true /\
  told du_reads = Some [mk_ust (Some 13) [mk_guard false false] 1; mk_ust (Some 3) [mk_guard false false] 0; mk_ust (Some 9) [] 0] /\
  told du_writes = Some [mk_ust (Some 13) [mk_guard false false] 1; mk_ust (Some 3) [mk_guard true false] 0; mk_ust (Some 9) [] 0] /\
  du_all (go du_reads) (all_fresh (l_first 3 9)) =
    Some ([ORet (AnVal 3); ORet (AnVal 13)], Some (Gives [RustSem.VProxy false (Some (RustSem.VT 13)); RustSem.VLock false (RustSem.VT 3); RustSem.VT 9]),
      Some (Gives false), Some (Gives [Some (Some 13); Some (Some 3); Some (Some 9)])) /\
  du_all (go du_writes) (all_fresh (l_first 3 9)) =
    Some ([ORet (AnVal 13); ORet (AnVal 3)], Some Hangs, Some (Gives false), Some (Gives [Some (Some 13); None; Some (Some 9)])).
Proof.
  cbn zeta. assert (B : builder_input l_ctx = [l_field 0; l_field 1; l_field 2]) by (vm_compute; reflexivity).
  split; [exact (w_unskipped l_ctx)|].
  split; [exact (w_works every_feature l_ctx (terminated l_struct) l_sources l_struct_as l_read_as l_sound)|]. rewrite B.
  split. { intros f I. destruct I as [<-|[<-|[<-|[]]]]; vm_compute; discriminate. }
  split; [repeat (split; [eexists; split; vm_compute; reflexivity|]); exact I|]. repeat (split; [vm_compute; reflexivity|]). vm_compute. reflexivity.
Qed.
(** A field changed inside a plain struct: copying and comparing panic while it is written. *)
Example C97_plain_case :
  du_all (impl_session (fun _ => thirteen) 0 SerdeProps.five sp_ctx sp_fields [(0, ACall KAccessor 0 Release); (1, ACall KAccessorMut 0 Keep)]
           (all_fresh [RustSem.VOnce None; RustSem.VCell (RustSem.VT 3)])) (all_fresh [RustSem.VOnce (Some (RustSem.VT 13)); RustSem.VCell (RustSem.VT 3)]) =
    Some ([ORet (AnVal 13); ORet (AnVal 3)], Some Breaks, Some Breaks, Some (Gives [Some (Some 13); None])).
Proof. vm_compute. reflexivity. Qed.
(** A lazy field of a sync struct: printing it hangs while its write guard is kept; of an async
    struct: it cannot be compared. *)
Example C97_lazy_case :
  let c := ctx_of sync_s [lazy_guarded] in
  session_offered c [lazy_guarded] [(0, ACall KWriter 0 Keep)] = true /\
  option_map snd (spec_session (fun _ => steady) 0 [view_of c lazy_guarded] [(0, ACall KWriter 0 Keep)] (at_start [Some 3])) =
    Some [mk_ust (Some 3) [mk_guard true true] 0] /\
  is_lazy_view (view_of c lazy_guarded) = true /\
  du_all (impl_session (fun _ => steady) 0 SerdeProps.five c [lazy_guarded] [(0, ACall KWriter 0 Keep)] (all_fresh [RustSem.VProxy false (Some (RustSem.VT 3))]))
    (all_fresh [RustSem.VProxy false None]) = Some ([ORet AnWriter], Some Hangs, Some Hangs, Some Hangs) /\
  let d := ctx_of async_s [lazy_guarded] in
  v_disc (view_of d lazy_guarded) = Solo /\ f_is_skipped lazy_guarded = false /\
  stores d [lazy_guarded] [Some 3] [RustSem.VProxy true (Some (RustSem.VT 3))] /\
  eq_field (RustSem.mk_st (RustSem.VProxy true (Some (RustSem.VT 3))) 0 false 0) (RustSem.mk_st (RustSem.VProxy true (Some (RustSem.VT 3))) 0 false 0) = None.
Proof.
  cbn zeta. repeat (split; [vm_compute; reflexivity|]). split; [|vm_compute; reflexivity].
  split; [eexists; split; vm_compute; reflexivity|exact I].
Qed.
