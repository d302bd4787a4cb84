(** The emitted methods of locked fields, unfolded into what they do with the lock. *)
From Coq Require Import List Bool String Arith.
From Verif Require Import ProxyTypes ArgsModel RustAst CommonGen PlainGen SyncGen CodegenSpec FieldSpec FieldRun
  CodegenProofs FieldStruct ThreadSpec LockedModel.
Import ListNotations.
Open Scope string_scope.

(** What the content is seen as. *)
Definition tells (opt : bool) (o : option nat) : option answer :=
  if opt then Some (AnOpt o) else match o with Some n => Some (AnVal n) | None => None end.
Definition l_end (an : option answer) : lcomp :=
  match an with Some an => LOp LDrop (fun _ => LFin (ORet an) None) | None => LWrong end.
Definition l_kept (opt w : bool) (o : option nat) : lcomp :=
  match tells opt o with Some an => LFin (ORet an) (Some (mk_guard w false)) | None => LWrong end.
Definition l_has (o : option nat) : answer := AnBool (match o with Some _ => true | None => false end).
Definition lstd (opt keeps : bool) (k : hkind) (n : nat) : lcomp :=
  match k with
  | KAccessor => LOp (LAcq false) (fun o => if keeps then l_kept opt false o else LOp LLook (fun o => l_end (tells opt o)))
  | KReader => LOp (LAcq false) (l_kept opt false)
  | KAccessorMut | KWriter => LOp (LAcq true) (l_kept opt true)
  | KSetter => LOp (LAcq true) (fun _ => LOp (LSwap (Some n)) (fun o => l_end (tells opt o)))
  | KClearer => LOp (LAcq true) (fun _ => LOp (LSwap None) (fun o => l_end (tells opt o)))
  | KPredicate => LOp (LAcq false) (fun _ => LOp LLook (fun o => l_end (Some (l_has o))))
  | _ => LWrong
  end.
Definition l_kind (opt : bool) (k : hkind) : bool :=
  match k with KBuilder | KLazy => false | KClearer | KPredicate => opt | _ => true end.

(** The same up to what the continuations do. *)
Inductive alike : lcomp -> lcomp -> Prop :=
| al_fin o g : alike (LFin o g) (LFin o g)
| al_wrong : alike LWrong LWrong
| al_op o k1 k2 : (forall x, alike (k1 x) (k2 x)) -> alike (LOp o k1) (LOp o k2).
Lemma alike_refl c : alike c c.
Proof. induction c; constructor; auto. Qed.


Lemma lstd_ok : forall g ms m n, g_lazy g = false -> g_lock g = true -> g_skip g = false ->
  sync_methods g = GOk ms -> In m ms ->
  sync_well_typed (settings_g g) (m_kind m) = true -> meant true (settings_g g) (m_kind m) = true ->
  l_kind (g_optional g) (m_kind m) = true /\
  alike (lscript (g_async g) (g_optional g) m n) (lstd (g_optional g) (negb (g_clone g || g_copy g)) (m_kind m) n).
Proof.
  intros g ms m n L K Sk H Hin Wt Me. unfold sync_methods in H. rewrite Sk in H.
  bind_in H. injection H as <-. rewrite !in_app_iff in Hin.
  unfold sync_well_typed, by_value in Wt; cbn in Wt. rewrite L, K in Wt.
  unfold meant in Me; cbn in Me. rewrite L, K in Me. cbn in Me.
  destruct Hin as [Hin|[Hin|[Hin|[Hin|[Hin|[Hin|Hin]]]]]].
  - unfold sync_accessor, reader_method, fallible_return_type in E. rewrite L, K in E. cbn [orb] in E.
    destruct (g_get g); [|injection E as <-; destruct Hin].
    destruct (g_clone g || g_copy g) eqn:Cc.
    + injection E as <-; destruct Hin as [<-|[]]; split; try reflexivity.
      cbn in Wt. rewrite ?Cc in Wt. unfold lscript; cbn [m_kind m_body m_arg method negb].
      unfold cmethod, fallible_shortcut.
      destruct (g_fallible g); [discriminate Wt|]. destruct (g_async g); [discriminate Wt|].
      destruct (g_optional g), (g_copy g); cbn; repeat (constructor; intros); cbn; try apply alike_refl;
        destruct x0; cbn; apply alike_refl.
    + cbn in Wt. unfold read_name in E.
      destruct (g_optional g) eqn:O; injection E as <-; destruct Hin as [<-|[]]; split; try reflexivity;
        unfold lscript; cbn [m_kind m_body m_arg method negb]; unfold await; cbn in Wt; rewrite ?Cc in Wt.
      * destruct (g_fallible g); [discriminate Wt|]. destruct (g_async g); cbn; constructor; intros; cbn; apply alike_refl.
      * destruct (g_async g); cbn; constructor; intros [x|]; cbn; apply alike_refl.
  - unfold sync_accessor_mut in E0. rewrite L, K in E0.
    destruct (g_get_mut g); [|injection E0 as <-; destruct Hin].
    injection E0 as <-; destruct Hin as [<-|[]]; split; try reflexivity.
    cbn in Wt. unfold lscript; cbn [m_kind m_body m_arg method_mut].
    destruct (g_async g); [discriminate Wt|]. destruct (g_optional g); cbn; constructor; intros [x|]; cbn; apply alike_refl.
  - unfold sync_reader, reader_method in E1. rewrite L in E1.
    destruct (g_reader g); [|injection E1 as <-; destruct Hin]. unfold read_name in E1.
    destruct (g_optional g) eqn:O; injection E1 as <-; destruct Hin as [<-|[]]; split; try reflexivity;
      unfold lscript; cbn [m_kind m_body m_arg method]; unfold await; cbn in Wt.
    + destruct (g_fallible g); [discriminate Wt|]. destruct (g_async g); cbn; constructor; intros; cbn; apply alike_refl.
    + destruct (g_async g); cbn; constructor; intros [x|]; cbn; apply alike_refl.
  - unfold sync_writer in E2. rewrite L in E2. destruct (g_writer g); [|injection E2 as <-; destruct Hin].
    injection E2 as <-; destruct Hin as [<-|[]]; split; try reflexivity.
    unfold lscript; cbn [m_kind m_body m_arg method]. unfold await.
    destruct (g_async g), (g_optional g); cbn; constructor; intros [x|]; cbn; apply alike_refl.
  - unfold sync_setter in E3. rewrite L, K in E3. destruct (g_set g); [|injection E3 as <-; destruct Hin].
    destruct (g_optional g) eqn:O; injection E3 as <-; destruct Hin as [<-|[]]; split; try reflexivity;
      unfold lscript; cbn [m_kind m_body m_arg method]; unfold await, arg_ty, arg_val;
      destruct (g_async g), (g_set_into g); cbn; repeat (constructor; intros); cbn; try apply alike_refl;
      destruct x0; cbn; apply alike_refl.
  - unfold sync_clearer in E4. rewrite L in E4. destruct (g_clearer g); [|injection E4 as <-; destruct Hin].
    injection E4 as <-; destruct Hin as [<-|[]]. cbn in Wt. destruct (g_optional g); [|discriminate Wt]. split; [reflexivity|].
    unfold lscript; cbn [m_kind m_body m_arg method]; unfold await.
    destruct (g_async g); cbn; repeat (constructor; intros); cbn; apply alike_refl.
  - unfold sync_predicate in E5. rewrite L, K in E5. destruct (g_predicate g); [|injection E5 as <-; destruct Hin].
    injection E5 as <-; destruct Hin as [<-|[]]. cbn in Wt, Me. destruct (g_fallible g) eqn:F; [discriminate Me|].
    destruct (g_optional g); [|discriminate Wt]. split; [reflexivity|].
    unfold lscript; cbn [m_kind m_body m_arg method]; unfold await, read_name. rewrite F.
    destruct (g_async g); cbn; repeat (constructor; intros); cbn; apply alike_refl.
Qed.
