(** Proofs about the token helpers. *)
From Coq Require Import List Bool String Ascii Permutation Arith Lia.
From Coq Require DecimalString DecimalNat.
From Verif Require Import ArgsModel CtxModel RustAst CommonGen PlainGen SyncGen StructGen TokenSpec TokenModel.
Import ListNotations.
Open Scope string_scope.
Open Scope list_scope.

(** ** fixup_self_type *)
Section TokInd.
Variable P : tok -> Prop.
Hypothesis Hi : forall s, P (TIdent s).
Hypothesis Hp : forall s, P (TPunct s).
Hypothesis Hl : forall s, P (TLit s).
Hypothesis Hg : forall d l, Forall P l -> P (TGroup d l).
Fixpoint tok_all (t : tok) : P t :=
  match t with
  | TIdent s => Hi s
  | TPunct s => Hp s
  | TLit s => Hl s
  | TGroup d l => Hg d l ((fix go (l : list tok) : Forall P l :=
                             match l with
                             | [] => Forall_nil _
                             | x :: r => Forall_cons _ (tok_all x) (go r)
                             end) l)
  end.
End TokInd.

Definition put_self (rep : list atom) (a : atom) : list atom :=
  match a with
  | AIdent s => if String.eqb s "Self" then rep else [a]
  | _ => [a]
  end.

Lemma flat_map_app : forall {A B} (f : A -> list B) l r,
  flat_map f (l ++ r) = (flat_map f l ++ flat_map f r)%list.
Proof. induction l; intros r; simpl; [reflexivity|]. now rewrite IHl, app_assoc. Qed.

Lemma text_app : forall l r, text (l ++ r) = (text l ++ text r)%list.
Proof. intros. apply flat_map_app. Qed.

Lemma text_cons : forall t l, text (t :: l) = flat t ++ text l.
Proof. reflexivity. Qed.

Lemma fixup_flat : forall rep t,
  text (fixup_tok rep t) = flat_map (put_self (text rep)) (flat t).
Proof.
  intros rep. induction t using tok_all; simpl; try reflexivity.
  - destruct (String.eqb s "Self"); [now rewrite app_nil_r|reflexivity].
  - rewrite app_nil_r. f_equal. rewrite flat_map_app. simpl. f_equal.
    induction H; simpl; [reflexivity|].
    fold (text (fixup_tok rep x ++ flat_map (fixup_tok rep) l)).
    rewrite text_app, H, flat_map_app. f_equal. exact IHForall.
Qed.

Lemma fixup_text : forall s ts,
  text (fixup_self_type s ts) = flat_map (put_self (text (self_type s))) (text ts).
Proof.
  intros s ts. unfold fixup_self_type.
  induction ts; simpl; [reflexivity|].
  rewrite text_app, fixup_flat, flat_map_app. f_equal. exact IHts.
Qed.

(** Parameters that are declared by their name alone. *)
Definition bare_param (p : gparam) : Prop :=
  gp_kind p <> GConst /\ gp_bound p = [] /\ gp_default p = [].
Definition struct_type (s : struct_decl) : list atom :=
  type_text (sd_name s) (map (fun p => text (gp_name_toks p)) (sd_generics s)).
Lemma bare_decl : forall p, bare_param p -> gp_decl_toks p = gp_name_toks p.
Proof.
  intros [k n b d] (H1 & H2 & H3). simpl in *. subst. unfold gp_decl_toks, gp_name_toks. simpl.
  destruct k; try reflexivity. congruence.
Qed.
Lemma join_text : forall l, text (comma_join l) = commas (map text l).
Proof.
  induction l as [|x [|y r] IH]; [reflexivity|reflexivity|].
  change (comma_join (x :: y :: r)) with (x ++ TPunct "," :: comma_join (y :: r))%list.
  rewrite text_app. change (text (TPunct "," :: comma_join (y :: r)))
    with (APunct "," :: text (comma_join (y :: r))). rewrite IH. reflexivity.
Qed.
Lemma self_type_text : forall s, Forall bare_param (sd_generics s) ->
  text (self_type s) = APunct "<" :: struct_type s ++ [APunct ">"].
Proof.
  intros [n gs] H. unfold self_type, struct_type, type_text. cbn [sd_name sd_generics] in *.
  destruct gs as [|g gs]; [reflexivity|]. unfold generics_toks.
  assert (E : map gp_decl_toks (g :: gs) = map gp_name_toks (g :: gs))
    by (apply map_ext_Forall; eapply Forall_impl; [|exact H]; exact bare_decl).
  rewrite E, !text_cons, text_app, text_cons, text_app, join_text, map_map. reflexivity.
Qed.

(** Every Self is in front of [::]. *)
Definition self_in_paths (l : list atom) : Prop :=
  forall before after, l = before ++ AIdent "Self" :: after -> path_sep after.

Lemma put_self_sep : forall rep l, path_sep l -> path_sep (flat_map (put_self rep) l).
Proof. intros rep l (r & ->). simpl. eexists. reflexivity. Qed.

Lemma put_self_reads : forall ty l, self_in_paths l ->
  reads_as ty l (flat_map (put_self (APunct "<" :: ty ++ [APunct ">"])) l).
Proof.
  intros ty. induction l as [|a l IH]; intros H; [constructor|].
  assert (Hl : self_in_paths l) by (intros b r E; apply (H (a :: b) r); simpl; now rewrite E).
  specialize (IH Hl).
  destruct a; simpl; try (apply reads_other; [discriminate|exact IH]).
  destruct (String.eqb_spec s "Self").
  - subst. simpl. rewrite <- app_assoc. simpl. apply reads_path; [|exact IH].
    exact (H [] l eq_refl).
  - apply reads_other; [congruence|exact IH].
Qed.

Lemma reads_put_self : forall ty l,
  (forall r, ty <> APunct "<" :: r) -> ty <> [] ->
  reads_as ty l (flat_map (put_self (APunct "<" :: ty ++ [APunct ">"])) l) -> self_in_paths l.
Proof.
  intros ty l Hty Hn. set (rep := APunct "<" :: ty ++ [APunct ">"]).
  remember (flat_map (put_self rep) l) as m eqn:E. intros H. revert E.
  induction H; intros E; subst.
  - intros b r Eb. destruct b; discriminate.
  - assert (E' : l' = flat_map (put_self rep) l).
    { destruct a; simpl in E; try now injection E.
      destruct (String.eqb_spec s "Self"); [congruence|now injection E]. }
    intros b r Eb. destruct b; simpl in Eb; [congruence|]. injection Eb as -> Eb.
    exact (IHreads_as E' b r Eb).
  - exfalso. simpl in E. destruct ty; [congruence|]. simpl in E. injection E as E1 E2.
    subst. exact (Hty ty eq_refl).
  - assert (E' : l' = flat_map (put_self rep) l).
    { simpl in E. injection E as E. rewrite <- app_assoc in E. apply app_inv_head in E.
      now injection E. }
    intros b r Eb. destruct b; simpl in Eb; [injection Eb as ->; assumption|].
    injection Eb as _ Eb. exact (IHreads_as E' b r Eb).
Qed.

Lemma fixup_reads_iff : forall s ts, Forall bare_param (sd_generics s) ->
  reads_as (struct_type s) (text ts) (text (fixup_self_type s ts)) <-> self_in_paths (text ts).
Proof.
  intros s ts H. rewrite fixup_text, (self_type_text s H). split.
  - apply reads_put_self; unfold struct_type, type_text; destruct (map _ (sd_generics s)); congruence.
  - apply put_self_reads.
Qed.

Lemma fixup_identity : forall s ts, ~ In (AIdent "Self") (text ts) ->
  fixup_self_type s ts = ts.
Proof.
  intros s ts. unfold fixup_self_type. set (rep := self_type s).
  assert (Ht : forall t, ~ In (AIdent "Self") (flat t) -> fixup_tok rep t = [t]).
  { induction t using tok_all; simpl; intros Hn; try reflexivity.
    - destruct (String.eqb_spec s0 "Self"); [subst; tauto|reflexivity].
    - do 2 f_equal. assert (Hl : ~ In (AIdent "Self") (flat_map flat l))
        by (intro; apply Hn; right; apply in_or_app; now left).
      clear Hn. induction H; simpl in *; [reflexivity|].
      rewrite H by (intro; apply Hl; apply in_or_app; now left). simpl. f_equal.
      apply IHForall. intro; apply Hl; apply in_or_app; now right. }
  induction ts; simpl; intros Hn; [reflexivity|].
  unfold text in Hn; simpl in Hn.
  rewrite Ht by (intro; apply Hn; apply in_or_app; now left). simpl. f_equal.
  apply IHts. intro; apply Hn; apply in_or_app; now right.
Qed.

Lemma reads_unique_length : forall ty l m, reads_as ty l m -> ~ In (AIdent "Self") l -> m = l.
Proof. induction 1; simpl; intros; [reflexivity| |tauto|tauto]. f_equal. tauto. Qed.

(** ** Where default expressions end up *)
Definition all_fixed (e : expr) : bool := forallb snd (user_parts e).

Lemma plain_value_fixed : forall g e, plain_builder_value g = GOk e -> all_fixed e = true.
Proof.
  intros g e. unfold plain_builder_value, plain_default_wrap, value_for_set, plain_value_wrap, field_default_value, default_expr.
  destruct g; simpl.
  destruct g_default as [[t []]|]; destruct g_lazy, g_optional, g_inner_mut, g_forced, g_builder, g_required, g_has_default;
    simpl; intros H; try discriminate H; injection H as <-; reflexivity.
Qed.

(** The cases in which the sync generator leaves the default expression as it is. *)
Definition left_as_is (g : fcfg) : bool :=
  match g_default g with
  | None => false
  | Some _ => negb (g_forced g) && negb (g_builder g) || negb (g_lazy g) && (g_lock g || negb (g_optional g))
  end.
Lemma sync_value_fixed : forall g e, sync_builder_value g = GOk e ->
  (g_default g <> None -> g_has_default g = true) ->
  all_fixed e = negb (left_as_is g).
Proof.
  intros g e. unfold sync_builder_value, sync_default_wrap, value_for_set, sync_value_wrap, field_default_value,
    default_expr, sync_type, wrapper_type_ok, wrap_builder, repr_expect, left_as_is.
  destruct g; simpl. intros H Hd.
  destruct g_default as [[t b]|].
  - rewrite Hd in H by discriminate.
    destruct g_fallible, g_error_known; simpl in H; try discriminate H;
    destruct b, g_lazy, g_optional, g_lock, g_forced, g_builder; simpl in H; try discriminate H;
      injection H as <-; reflexivity.
  - destruct g_fallible, g_error_known; simpl in H; try discriminate H;
    destruct g_has_default, g_lazy, g_optional, g_lock, g_forced, g_builder, g_required; simpl in H; try discriminate H;
      injection H as <-; reflexivity.
Qed.
Lemma shadow_value_fixed : forall g, all_fixed (shadow_default g) = true.
Proof.
  intros g. unfold shadow_default, field_default_value, default_expr, serde_optional.
  destruct g; simpl. destruct g_default as [[t []]|]; destruct g_lazy, g_optional; reflexivity.
Qed.

Lemma default_given : forall c f, g_default (cfg_of c f) <> None -> g_has_default (cfg_of c f) = true.
Proof.
  intros c f. simpl. unfold default_value. destruct (f_has_default_value f); congruence.
Qed.

Lemma default_parts_plain : forall g e u, plain_builder_value g = GOk e -> In u (user_parts e) ->
  option_map fst (g_default g) = Some (fst u).
Proof.
  intros g e u. unfold plain_builder_value, plain_default_wrap, value_for_set, plain_value_wrap, field_default_value, default_expr.
  destruct g; simpl.
  destruct g_default as [[t []]|]; destruct g_lazy, g_optional, g_inner_mut, g_forced, g_builder, g_required, g_has_default;
    simpl; intros H; try discriminate H; injection H as <-; simpl; intros Hu;
    repeat (destruct Hu as [<-|Hu]); try reflexivity; contradiction.
Qed.
Lemma default_parts_sync : forall g e u, sync_builder_value g = GOk e -> In u (user_parts e) ->
  option_map fst (g_default g) = Some (fst u).
Proof.
  intros g e u. unfold sync_builder_value, sync_default_wrap, value_for_set, sync_value_wrap, field_default_value,
    default_expr, sync_type, wrapper_type_ok, wrap_builder, repr_expect.
  destruct g; simpl.
  destruct g_fallible, g_error_known; simpl; try discriminate;
  destruct g_default as [[t []]|]; destruct g_has_default, g_lazy, g_optional, g_lock, g_forced, g_builder, g_required;
    simpl; intros H; try discriminate H; injection H as <-; simpl; intros Hu;
    repeat (destruct Hu as [<-|Hu]); try reflexivity; contradiction.
Qed.

(** ** attributes(...) *)
Definition no_punct (t : tok) : Prop := forall s, t <> TPunct s.

Lemma chunk_step_app : forall ts done cur,
  fold_left chunk_step ts (done, cur)
  = let acc := fold_left chunk_step ts ([], []) in
    match fst acc with
    | [] => (done, cur ++ snd acc)
    | c :: r => (done ++ (cur ++ c) :: r, snd acc)
    end%list.
Proof.
  induction ts as [|t ts IH]; intros done cur; simpl; [now rewrite app_nil_r|].
  destruct t; simpl.
  1,3,4: rewrite (IH done), (IH [] [_]); destruct (fold_left chunk_step ts ([], [])) as [[|c r] z]; simpl;
    now rewrite <- app_assoc.
  rewrite (IH (done ++ [cur])%list []), (IH [[]]).
  destruct (fold_left chunk_step ts ([], [])) as [[|c r] z]; simpl; rewrite app_nil_r;
    [reflexivity|]. now rewrite <- app_assoc.
Qed.

Lemma chunks_nil : chunks [] = [[]].
Proof. reflexivity. Qed.
Lemma chunks_punct : forall s ts, chunks (TPunct s :: ts) = [] :: chunks ts.
Proof.
  intros s ts. unfold chunks. simpl. rewrite chunk_step_app.
  destruct (fold_left chunk_step ts ([], [])) as [[|c r] d]; reflexivity.
Qed.
Lemma chunks_tok : forall t ts, no_punct t ->
  exists c r, chunks ts = c :: r /\ chunks (t :: ts) = (t :: c) :: r.
Proof.
  intros t ts H. unfold chunks.
  assert (E : fold_left chunk_step (t :: ts) ([], []) = fold_left chunk_step ts ([], [t]))
    by (destruct t; simpl; try reflexivity; destruct (H s eq_refl)).
  rewrite E, (chunk_step_app ts [] [t]).
  destruct (fold_left chunk_step ts ([], [])) as [[|c r] d]; simpl; do 2 eexists; split; reflexivity.
Qed.

Lemma chunks_not_nil : forall ts, chunks ts <> [].
Proof.
  intros ts. unfold chunks. destruct (fst _); discriminate.
Qed.

Lemma drop_cons : forall c l, l <> [] -> drop_empty_last (c :: l) = c :: drop_empty_last l.
Proof.
  intros c l H. unfold drop_empty_last. simpl.
  destruct (rev l) as [|x r] eqn:E.
  - exfalso. apply H. rewrite <- (rev_involutive l), E. reflexivity.
  - simpl. destruct x; [now rewrite rev_app_distr|reflexivity].
Qed.

Lemma simple_no_punct : forall a, simple_attribute a -> Forall no_punct a.
Proof. intros a []; repeat constructor; discriminate. Qed.
Lemma simple_parses : forall a, simple_attribute a -> parses a = true.
Proof. intros a []; [reflexivity|]. simpl. now destruct d. Qed.
Lemma parses_simple : forall a, Forall no_punct a -> parses a = true -> simple_attribute a.
Proof.
  intros a H. destruct a as [|[s|s|s|d l] r]; simpl; try discriminate.
  2: { inversion H; subst. now destruct (H2 s). }
  inversion H; subst. destruct r as [|[s'|s'|s'|d l] r]; simpl; try discriminate.
  - constructor.
  - inversion H3; subst. now destruct (H4 s').
  - destruct r; [|discriminate]. destruct d; try discriminate; intros _; constructor; discriminate.
Qed.

Lemma chunks_run : forall a rest, Forall no_punct a ->
  exists c r, chunks rest = c :: r /\ chunks (a ++ rest) = (a ++ c) :: r.
Proof.
  induction a as [|t a IH]; intros rest H.
  - destruct (chunks rest) as [|c r] eqn:E; [now destruct (chunks_not_nil rest)|].
    exists c, r. split; [reflexivity|exact E].
  - inversion H; subst. destruct (IH rest H3) as (c & r & E1 & E2).
    destruct (chunks_tok t (a ++ rest) H2) as (c' & r' & E3 & E4).
    exists c, r. split; [exact E1|]. simpl. rewrite E4. rewrite E2 in E3. injection E3 as <- <-. reflexivity.
Qed.

Lemma loosely_chunks : forall l ts, loosely_listed l ts -> drop_empty_last (chunks ts) = l.
Proof.
  induction 1.
  - reflexivity.
  - destruct (chunks_run a [] (simple_no_punct a H)) as (c & r & E1 & E2).
    rewrite app_nil_r in E2. rewrite E2. injection E1 as <- <-. rewrite app_nil_r.
    destruct H; reflexivity.
  - destruct (chunks_run a (TPunct p :: ts) (simple_no_punct a H)) as (c & r & E1 & E2).
    rewrite E2. rewrite chunks_punct in E1. injection E1 as <- <-. rewrite app_nil_r.
    rewrite drop_cons by apply chunks_not_nil. now rewrite IHloosely_listed.
Qed.
Lemma loosely_parses : forall l ts, loosely_listed l ts -> forallb parses l = true.
Proof. induction 1; simpl; rewrite ?simple_parses by assumption; auto. Qed.

Lemma chunks_no_punct : forall ts, Forall (Forall no_punct) (chunks ts).
Proof.
  induction ts as [|t ts IH]; [repeat constructor|].
  destruct t as [s|s|s|d l].
  2: rewrite chunks_punct; constructor; [constructor|exact IH].
  all: match goal with |- Forall _ (chunks (?t :: _)) =>
         destruct (chunks_tok t ts ltac:(intros ? ?; discriminate)) as (c & r & E1 & E2) end;
    rewrite E2; rewrite E1 in IH; inversion IH; subst; constructor; [|assumption];
    constructor; [intros ? ?; discriminate|assumption].
Qed.

(** Reading the chunks back. *)
Lemma chunks_back : forall ts,
  Forall (fun c => parses c = true) (drop_empty_last (chunks ts)) ->
  loosely_listed (drop_empty_last (chunks ts)) ts.
Proof.
  intros ts. remember (List.length ts) as n eqn:En. revert ts En.
  induction n as [n IH] using lt_wf_ind. intros ts ->.
  assert (Hsplit : Forall no_punct ts \/ exists a p r, Forall no_punct a /\ ts = a ++ TPunct p :: r).
  { clear. induction ts as [|t ts [H|(a & p & r & Ha & ->)]]; [left; constructor| |].
    - destruct t as [s|s|s|d l]; try (left; constructor; [intros ? ?; discriminate|assumption]).
      right. exists [], s, ts. split; [constructor|reflexivity].
    - destruct t as [s|s|s|d l].
      2: right; exists [], s, (a ++ TPunct p :: r)%list; split; [constructor|reflexivity].
      all: right; eexists (_ :: a), p, r; split; [|reflexivity]; constructor; [intros ? ?; discriminate|assumption]. }
  destruct Hsplit as [Hnp|(a & p & r & Ha & ->)].
  - destruct (chunks_run ts [] Hnp) as (c & q & E1 & E2). rewrite app_nil_r in E2.
    injection E1 as <- <-. rewrite app_nil_r in E2. rewrite E2.
    destruct ts as [|t ts]; [constructor|]. simpl. intros Hp. inversion Hp; subst.
    apply loose_last. now apply parses_simple.
  - destruct (chunks_run a (TPunct p :: r) Ha) as (c & q & E1 & E2).
    rewrite chunks_punct in E1. injection E1 as <- <-. rewrite app_nil_r in E2. rewrite E2.
    rewrite drop_cons by apply chunks_not_nil. intros Hp. inversion Hp; subst.
    apply loose_sep; [now apply parses_simple|].
    apply (IH (List.length r)); [|reflexivity|assumption].
    rewrite app_length. simpl. lia.
Qed.

Lemma from_meta_iff : forall ts l, from_meta (MetaList ts) = AOk l <-> loosely_listed l ts.
Proof.
  intros ts l. unfold from_meta. split.
  - destruct (forallb parses (drop_empty_last (chunks ts))) eqn:E; [|discriminate].
    intros H. injection H as <-. apply chunks_back. now apply forallb_Forall in E || (apply Forall_forall; intros x Hx; rewrite forallb_forall in E; now apply E).
  - intros H. rewrite (loosely_chunks l ts H), (loosely_parses l ts H). reflexivity.
Qed.

Lemma listed_loosely : forall l ts, listed l ts -> Forall (Forall no_punct) l -> loosely_listed l ts.
Proof.
  assert (Hs : forall a, attribute a -> Forall no_punct a -> simple_attribute a).
  { assert (Hpt : forall p, path_tail p -> Forall no_punct p -> exists s, p = [TIdent s]).
    { intros p [s|s q Hq] H; [eexists; reflexivity|]. inversion H; subst. inversion H3; subst.
      now destruct (H4 ":"). }
    assert (Hp : forall p, attr_path p -> Forall no_punct p -> exists s, p = [TIdent s]).
    { intros p [q Hq|q Hq] H; [now apply Hpt|]. inversion H; subst. now destruct (H2 ":"). }
    intros a [p Ha|p d l Ha Hd|p s Ha] H.
    - destruct (Hp p Ha H) as (s & ->). constructor.
    - apply Forall_app in H. destruct H as [H _]. destruct (Hp p Ha H) as (s & ->).
      now constructor.
    - apply Forall_app in H. destruct H as [_ H]. inversion H; subst. now destruct (H2 "="). }
  induction 1; intros Hf; [constructor| |]; inversion Hf; subst.
  - apply loose_last. auto.
  - apply loose_sep; auto.
Qed.

(** ** Order of attributes *)
Lemma is_sep_iff : forall a b, is_sep a b = true <-> a = ":" /\ b = ":".
Proof. intros. unfold is_sep. now rewrite andb_true_iff, !String.eqb_eq. Qed.
Lemma path_is_derive_iff : forall a, path_is_derive a = true <-> is_derive a.
Proof.
  assert (H : forall s rest, (forall p q r, rest <> TPunct p :: TPunct q :: r) ->
    String.eqb s "derive" = true <-> is_derive (TIdent s :: rest)).
  { intros s rest Hr. rewrite String.eqb_eq. split.
    - intros ->. exists rest. split; [reflexivity|]. intros r. apply Hr.
    - intros (q & E & _). now injection E. }
  intros a. destruct a as [|[s|s|s|d l] r]; try (split; [discriminate|intros (? & ? & _); discriminate]).
  destruct r as [|[s1|s1|s1|d l] [|[s2|s2|s2|d2 l2] r]]; try (apply H; intros; discriminate).
  cbn [path_is_derive]. rewrite andb_true_iff, negb_true_iff, String.eqb_eq. split.
  - intros [-> Hn]. eexists. split; [reflexivity|]. intros q E. injection E as -> -> _. discriminate Hn.
  - intros (q & E & Hn). injection E as -> <-. split; [reflexivity|]. apply not_true_is_false.
    intro Hs. apply is_sep_iff in Hs. destruct Hs as [-> ->]. now apply (Hn r).
Qed.

Section Sorting.
Context {A : Type} (cmp : A -> A -> comparison) (first : A -> bool).
Hypothesis Hcmp : forall a b, cmp a b =
  if first a && negb (first b) then Lt else if negb (first a) && first b then Gt else Eq.
Lemma insert_first : forall x l, first x = true -> insert_by cmp x l = x :: l.
Proof.
  intros x [|y r] H; [reflexivity|]. simpl. rewrite Hcmp, H. simpl. rewrite andb_false_r.
  destruct (first y); reflexivity.
Qed.
Lemma insert_other : forall x ds os, first x = false -> Forall (fun a => first a = true) ds ->
  Forall (fun a => first a = false) os -> insert_by cmp x (ds ++ os) = (ds ++ x :: os)%list.
Proof.
  intros x ds os H Hd Ho. induction Hd as [|y ds Hy Hd IH].
  - destruct os as [|y os]; [reflexivity|]. inversion Ho; subst. simpl. now rewrite Hcmp, H2, H.
  - simpl. rewrite Hcmp, Hy, H. simpl. now rewrite IH.
Qed.
Lemma sorted_parted : forall l, exists ds os,
  parted (fun a => first a = true) l ds os /\ sort_by cmp l = (ds ++ os)%list.
Proof.
  assert (Hf : forall l ds os, parted (fun a => first a = true) l ds os ->
    Forall (fun a => first a = true) ds /\ Forall (fun a => first a = false) os).
  { induction 1 as [|x l ds os H _ [IH1 IH2]|x l ds os H _ [IH1 IH2]]; [split; constructor| |].
    - split; [now constructor|assumption].
    - split; [assumption|]. constructor; [now apply not_true_is_false|assumption]. }
  induction l as [|x l (ds & os & H & E)].
  - exists [], []. split; [constructor|reflexivity].
  - simpl. rewrite E. destruct (Hf l ds os H) as [H1 H2]. destruct (first x) eqn:Ex.
    + exists (x :: ds), os. split; [now constructor|]. now apply insert_first.
    + exists ds, (x :: os). split; [apply parted_other; [congruence|assumption]|].
      now apply insert_other.
Qed.
End Sorting.

Lemma parted_impl : forall {A} (P Q : A -> Prop) l ds os, (forall a, P a <-> Q a) ->
  parted P l ds os -> parted Q l ds os.
Proof.
  intros A P Q l ds os H. induction 1; [constructor| |].
  - apply parted_derive; [now apply H|assumption].
  - apply parted_other; [now rewrite <- H|assumption].
Qed.
Lemma parted_perm : forall {A} (P : A -> Prop) l ds os, parted P l ds os -> Permutation l (ds ++ os).
Proof.
  induction 1; [constructor|now constructor|].
  now apply Permutation_cons_app.
Qed.
Lemma all_attrs_derives_first : forall extra given,
  derives_first is_derive (extra ++ given) (all_attrs extra given).
Proof.
  intros extra given. unfold all_attrs.
  destruct (sorted_parted attr_cmp path_is_derive (fun a b => eq_refl) (extra ++ given)) as (ds & os & H & E).
  exists ds, os. split; [|exact E]. eapply parted_impl; [|exact H]. exact path_is_derive_iff.
Qed.

(** The comparison is a total preorder, as slice::sort_by demands. *)
Lemma attr_cmp_sym : forall a b, attr_cmp b a = CompOpp (attr_cmp a b).
Proof. intros a b. unfold attr_cmp. now destruct (path_is_derive a), (path_is_derive b). Qed.
Lemma attr_cmp_trans : forall a b c x, attr_cmp a b = x -> attr_cmp b c = x -> attr_cmp a c = x.
Proof.
  intros a b c x. unfold attr_cmp.
  destruct (path_is_derive a), (path_is_derive b), (path_is_derive c); simpl; congruence.
Qed.

Open Scope string_scope.
(** ** Identifiers *)
Definition digits_only (s : string) : Prop := forall c, In c (list_ascii_of_string s) -> c <> "_"%char.
Lemma decimal_digits : forall n, digits_only (decimal n).
Proof.
  intros n. unfold decimal. generalize (Nat.to_uint n). intros d c.
  induction d; simpl; try tauto; intros [<-|H]; try discriminate; auto.
Qed.
Lemma decimal_inj : forall n m, decimal n = decimal m -> n = m.
Proof.
  intros n m H. unfold decimal in H.
  assert (E : DecimalString.NilEmpty.uint_of_string (DecimalString.NilEmpty.string_of_uint (Nat.to_uint n))
            = DecimalString.NilEmpty.uint_of_string (DecimalString.NilEmpty.string_of_uint (Nat.to_uint m))) by now rewrite H.
  rewrite !DecimalString.NilEmpty.usu in E. injection E as E.
  rewrite <- (DecimalNat.Unsigned.of_to n), <- (DecimalNat.Unsigned.of_to m). now rewrite E.
Qed.

Lemma ascii_app : forall a b, list_ascii_of_string (a ++ b)
  = (list_ascii_of_string a ++ list_ascii_of_string b)%list.
Proof. induction a; intros b; simpl; [reflexivity|]. now rewrite IHa. Qed.
Lemma ascii_inj : forall a b, list_ascii_of_string a = list_ascii_of_string b -> a = b.
Proof.
  intros a b H. rewrite <- (string_of_list_ascii_of_string a), <- (string_of_list_ascii_of_string b).
  now rewrite H.
Qed.
Lemma last_sep : forall {A} (x : A) l1 r1 l2 r2, ~ In x r1 -> ~ In x r2 ->
  (l1 ++ x :: r1 = l2 ++ x :: r2)%list -> r1 = r2.
Proof.
  induction l1 as [|a l1 IH]; intros r1 [|b l2] r2 H1 H2 E; simpl in E.
  - now injection E.
  - injection E as _ E. exfalso. apply H1. rewrite E. apply in_or_app. right. now left.
  - injection E as _ E. exfalso. apply H2. rewrite <- E. apply in_or_app. right. now left.
  - injection E as _ E. exact (IH r1 l2 r2 H1 H2 E).
Qed.

Lemma unique_suffix : forall p q n m,
  p ++ "_" ++ decimal n = q ++ "_" ++ decimal m -> n = m.
Proof.
  intros p q n m H. apply decimal_inj. apply ascii_inj.
  apply (last_sep "_"%char (list_ascii_of_string p) _ (list_ascii_of_string q)).
  - intro Hi. exact (decimal_digits n _ Hi eq_refl).
  - intro Hi. exact (decimal_digits m _ Hi eq_refl).
  - apply (f_equal list_ascii_of_string) in H. rewrite !ascii_app in H. exact H.
Qed.

Lemma unique_later : forall ps n i, In i (unique_idents n ps) ->
  exists p m, n < m /\ i = p ++ "_" ++ decimal m.
Proof.
  induction ps as [|p ps IH]; simpl; intros n i; [tauto|]. intros [<-|H].
  - exists p, (S n). split; [lia|reflexivity].
  - destruct (IH (S n) i H) as (q & m & Hm & ->). exists q, m. split; [lia|reflexivity].
Qed.
Lemma unique_nodup : forall ps n, NoDup (unique_idents n ps).
Proof.
  induction ps as [|p ps IH]; intros n; [constructor|]. simpl. constructor; [|apply IH].
  intro H. apply unique_later in H. destruct H as (q & m & Hm & E).
  apply unique_suffix in E. lia.
Qed.
Lemma unique_prefix : forall ps n, Forall2 (fun p i => exists k, i = p ++ "_" ++ decimal k) ps (unique_idents n ps).
Proof.
  induction ps as [|p ps IH]; intros n; [constructor|]. simpl. constructor; [|apply IH].
  eexists; reflexivity.
Qed.
Lemma prefix_app : forall p s, String.prefix p (p ++ s) = true.
Proof.
  induction p as [|c p IH]; intros s; simpl; [now destruct s|].
  destruct (ascii_dec c c); [apply IH|congruence].
Qed.
Lemma unique_starts : forall ps n, Forall2 (fun p i => String.prefix p i = true) ps (unique_idents n ps).
Proof.
  induction ps as [|p ps IH]; intros n; [constructor|]. simpl. constructor; [apply prefix_app|apply IH].
Qed.
