(** The emitted methods of lazy fields, unfolded into calls on the container. *)
From Coq Require Import List Bool String Arith.
From Verif Require Import ProxyTypes ArgsModel RustAst CommonGen PlainGen SyncGen CodegenSpec RustSem FieldSpec FieldRun
  CodegenProofs FieldStruct ThreadSpec ThreadModel.
Import ListNotations.
Open Scope string_scope.

Definition r_op (t w : bool) : op nat :=
  match t, w with
  | false, false => ORead | true, false => OTryRead | false, true => OReadMut | true, true => OTryReadMut
  end.
Definition on_guard (t w : bool) (r : res nat nat) : comp :=
  match r with
  | RGuard n => Fin (ORet (AnVal n)) (Some (mk_guard w false))
  | RErr e => if t then Fin (ORet (AnErr e)) None else Wrong
  | RPanic => Fin OPanic None
  | _ => Wrong
  end.
Definition on_copied (r : res nat nat) : comp :=
  match r with RVal (Some n) => Op GDrop (fun _ => Fin (ORet (AnVal n)) None) | _ => Wrong end.
Definition on_copy (t : bool) (r : res nat nat) : comp :=
  match r with
  | RGuard _ => Op GGet on_copied
  | RErr e => if t then Fin (ORet (AnErr e)) None else Wrong
  | RPanic => Fin OPanic None
  | _ => Wrong
  end.
Definition on_write (r : res nat nat) : comp :=
  match r with RUnit => Fin (ORet AnWriter) (Some (mk_guard true true)) | _ => Wrong end.
Definition on_stored (r : res nat nat) : comp :=
  match r with RVal o => xfinish true (xopt o) | _ => Wrong end.
Definition on_store (n : nat) (r : res nat nat) : comp :=
  match r with RUnit => Op (GStore n) on_stored | _ => Wrong end.
Definition on_clear (r : res nat nat) : comp :=
  match r with RVal o => xfinish false (xopt o) | _ => Wrong end.
Definition on_isset (r : res nat nat) : comp :=
  match r with RBool b => Fin (ORet (AnBool b)) None | _ => Wrong end.
Definition std (fl keeps : bool) (k : hkind) (n : nat) : comp :=
  match k with
  | KAccessor => Op (r_op fl false) (if keeps then on_guard fl false else on_copy fl)
  | KReader => Op (r_op fl false) (on_guard fl false)
  | KAccessorMut => Op (r_op fl true) (on_guard fl true)
  | KWriter => Op OWrite on_write
  | KSetter => Op OWrite (on_store n)
  | KClearer => Op OClear on_clear
  | KPredicate => Op OIsSet on_isset
  | _ => Wrong
  end.
Definition modelled (k : hkind) : bool := match k with KBuilder | KLazy => false | _ => true end.

Lemma std_ok : forall g alive ms m n, g_lazy g = true -> g_skip g = false ->
  (g_rc g = true -> alive = true) -> sync_methods g = GOk ms -> In m ms ->
  sync_well_typed (settings_g g) (m_kind m) = true ->
  modelled (m_kind m) = true /\
  script (g_async g) alive m n = std (g_fallible g) (negb (g_clone g || g_copy g)) (m_kind m) n.
Proof.
  intros g alive ms m n L Sk Al H Hin Wt. unfold sync_methods in H. rewrite Sk in H.
  bind_in H. injection H as <-. rewrite !in_app_iff in Hin.
  assert (S0 : forall rho, xfind rho "self" = Some XSelf -> forall h ret k,
    cev (g_async g) alive rho (builder_self g) h ret k = k h (XV XSelf)).
  { intros rho F h ret k. unfold builder_self. destruct (g_rc g); cbn; rewrite F; [|reflexivity]. rewrite Al; reflexivity. }
  destruct Hin as [Hin|[Hin|[Hin|[Hin|[Hin|[Hin|Hin]]]]]].
  - unfold sync_accessor, reader_method, fallible_return_type in E. rewrite L in E. cbn [orb] in E.
    destruct (g_get g); [|injection E as <-; destruct Hin].
    destruct (g_clone g || g_copy g) eqn:Cc; bind_in E; injection E as <-; destruct Hin as [<-|[]]; split; try reflexivity;
      unfold script; cbn [m_kind m_body m_arg method negb].
    + unfold sync_well_typed in Wt; cbn in Wt. rewrite L in Wt. unfold by_value in Wt; cbn in Wt. rewrite Cc, andb_true_r in Wt.
      unfold cmethod, fallible_shortcut, fallible_ok_return, read_name, await.
      destruct (g_optional g); [discriminate Wt|].
      destruct (g_async g) eqn:Ha, (g_fallible g), (g_copy g); cbn; rewrite ?S0 by reflexivity; reflexivity.
    + unfold read_name, await.
      destruct (g_async g) eqn:Ha, (g_fallible g); cbn; rewrite ?S0 by reflexivity; reflexivity.
  - unfold sync_accessor_mut, fallible_return_type in E0. rewrite L in E0.
    destruct (g_get_mut g); [|injection E0 as <-; destruct Hin].
    bind_in E0; injection E0 as <-; destruct Hin as [<-|[]]; split; try reflexivity;
      unfold script; cbn [m_kind m_body m_arg method_mut]. unfold read_mut_name, await.
    destruct (g_async g) eqn:Ha, (g_fallible g); cbn; rewrite ?S0 by reflexivity; reflexivity.
  - unfold sync_reader, reader_method, fallible_return_type in E1. rewrite L in E1.
    destruct (g_reader g); [|injection E1 as <-; destruct Hin].
    bind_in E1; injection E1 as <-; destruct Hin as [<-|[]]; split; try reflexivity;
      unfold script; cbn [m_kind m_body m_arg method]. unfold read_name, await.
    destruct (g_async g) eqn:Ha, (g_fallible g); cbn; rewrite ?S0 by reflexivity; reflexivity.
  - unfold sync_writer in E2. rewrite L in E2. destruct (g_writer g); [|injection E2 as <-; destruct Hin].
    bind_in E2; injection E2 as <-; destruct Hin as [<-|[]]; split; try reflexivity.
    unfold script; cbn [m_kind m_body m_arg method]. unfold await. destruct (g_async g); reflexivity.
  - unfold sync_setter in E3. rewrite L in E3. destruct (g_set g); [|injection E3 as <-; destruct Hin].
    injection E3 as <-; destruct Hin as [<-|[]]; split; try reflexivity.
    unfold script; cbn [m_kind m_body m_arg method]. unfold await, arg_ty, arg_val.
    destruct (g_async g), (g_set_into g); reflexivity.
  - unfold sync_clearer in E4. rewrite L in E4. destruct (g_clearer g); [|injection E4 as <-; destruct Hin].
    injection E4 as <-; destruct Hin as [<-|[]]; split; try reflexivity.
    unfold script; cbn [m_kind m_body m_arg method]. unfold await. destruct (g_async g); reflexivity.
  - unfold sync_predicate in E5. rewrite L in E5. destruct (g_predicate g); [|injection E5 as <-; destruct Hin].
    injection E5 as <-; destruct Hin as [<-|[]]; split; reflexivity.
Qed.

Lemma finish_opt h o : xfinish h (xopt o) = leave h (Fin (ORet (AnOpt o)) None).
Proof. destruct o; reflexivity. Qed.
