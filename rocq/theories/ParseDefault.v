(** The argument [default] of a field: the forms of the value and its text. *)
From Coq Require Import List Bool String Ascii Lia.
From Verif Require Import ArgsModel TokenSpec TokenModel ParseModel ParseSpec ParseFacts ParseProofs ParseForms.
Import ListNotations.
Open Scope string_scope.
Open Scope list_scope.

(** ** Text *)
Definition spell : list tok -> string :=
  fix show_toks (l : list tok) : string :=
    match l with
    | [] => ""
    | x :: r =>
        (show_tok x
         ++ match r with y :: _ => if wordy x && wordy y then " " else "" | [] => "" end
         ++ show_toks r)%string
    end.
Definition inner : bool -> list tok -> string :=
  fix go (w : bool) (l : list tok) : string :=
    match l with
    | [] => ""
    | TIdent s :: r => ((if w then " " else "") ++ s ++ go true r)%string
    | TLit s :: r => ((if w then " " else "") ++ s ++ go true r)%string
    | x :: r => (text x ++ go false r)%string
    end.
Lemma show_group d l : show_tok (TGroup d l) = (open_of d ++ spell l ++ close_of d)%string.
Proof. reflexivity. Qed.
Lemma text_group d l : text (TGroup d l) = (open_of d ++ inner false l ++ close_of d)%string.
Proof. destruct d; try reflexivity. simpl. change (inner false l = (inner false l ++ "")%string).
  induction (inner false l) as [|c s IH]; [reflexivity|]. simpl. f_equal. exact IH.
Qed.
Lemma app_nil s : (s ++ "")%string = s.
Proof. induction s as [|c s IH]; [reflexivity|]. simpl. f_equal. exact IH. Qed.
Lemma app_assoc' a b c : ((a ++ b) ++ c = a ++ b ++ c)%string.
Proof. induction a as [|x a IH]; [reflexivity|]. simpl. f_equal. exact IH. Qed.
Lemma inner_spell l : Forall (fun t => text t = show_tok t) l -> forall w,
  inner w l = ((match l with y :: _ => if w && wordy y then " " else "" | [] => "" end) ++ spell l)%string.
Proof.
  induction 1 as [|t l T F IH]; intros w; [reflexivity|].
  assert (N : forall b, b = wordy t ->
    inner b l = (match l with y :: _ => if wordy t && wordy y then " " else "" | [] => "" end ++ spell l)%string).
  { intros b ->. apply IH. }
  destruct t as [s|s|s|d g].
  - simpl inner. rewrite (N true eq_refl). simpl. rewrite andb_true_r. reflexivity.
  - simpl inner. rewrite (N false eq_refl). simpl. rewrite andb_false_r. reflexivity.
  - simpl inner. rewrite (N true eq_refl). simpl. rewrite andb_true_r. reflexivity.
  - change (inner w (TGroup d g :: l)) with (text (TGroup d g) ++ inner false l)%string.
    rewrite T, (N false eq_refl). simpl wordy. rewrite andb_false_r. reflexivity.
Qed.
Lemma text_show : forall t, text t = show_tok t.
Proof.
  fix IH 1. intros [s|s|s|d l]; try reflexivity.
  rewrite text_group, show_group. f_equal. f_equal. rewrite inner_spell.
  - destruct l; reflexivity.
  - induction l as [|t l IHl]; constructor; [apply IH|exact IHl].
Qed.
Lemma written_show ts : written ts = show ts.
Proof. apply text_show. Qed.

(** ** Forms *)
Lemma path_of_segs l : l <> [] -> Forall (fun s => segment_ok s = true) l -> path_of (segs_toks l).
Proof.
  induction l as [|s l IH]; intros N F; [contradiction|]. inversion F; subst. apply name_ok_segment in H1.
  destruct l as [|s' l]; [constructor; exact H1|].
  change (path_of (TIdent s :: TPunct ":" :: TPunct ":" :: segs_toks (s' :: l))).
  constructor; [exact H1|]. apply IH; [discriminate|exact H2].
Qed.
Lemma any_path_toks p : p_segs p <> [] -> Forall (fun s => segment_ok s = true) (p_segs p) -> any_path (path_toks p).
Proof.
  intros N F. destruct p as [ab l]. simpl in *. unfold path_toks. simpl. pose proof (path_of_segs l N F).
  destruct ab; constructor; assumption.
Qed.
Lemma segs_of_path l : path_of l -> exists s, l = segs_toks s /\ s <> [] /\ Forall (fun x => segment_ok x = true) s.
Proof.
  induction 1 as [s K|s l K P (x & -> & N & F)].
  - exists [s]. split; [reflexivity|]. split; [discriminate|]. constructor; [apply name_ok_segment; exact K|constructor].
  - exists (s :: x). split; [destruct x; [contradiction|reflexivity]|]. split; [discriminate|].
    constructor; [apply name_ok_segment; exact K|exact F].
Qed.
Lemma toks_of_path l : any_path l ->
  exists p, l = path_toks p /\ p_segs p <> [] /\ Forall (fun x => segment_ok x = true) (p_segs p).
Proof.
  destruct 1 as [l P|l P]; destruct (segs_of_path _ P) as (s & -> & N & F).
  - exists (mk_path false s). auto.
  - exists (mk_path true s). auto.
Qed.
Lemma parse_segs_back s r : s <> [] -> Forall (fun x => segment_ok x = true) s -> not_sep r ->
  parse_segs (segs_toks s ++ r) = Some (s, r).
Proof.
  induction s as [|x s IH]; intros N F NS; [contradiction|]. inversion F; subst. destruct s as [|y s].
  - apply parse_segs_one; assumption.
  - change (segs_toks (x :: y :: s) ++ r) with (TIdent x :: TPunct ":" :: TPunct ":" :: (segs_toks (y :: s) ++ r)).
    simpl parse_segs. rewrite H1. replace (is_sep ":" ":") with true by reflexivity.
    change (match s with [] => [TIdent y] | _ :: _ => TIdent y :: TPunct ":" :: TPunct ":" :: segs_toks s end)
      with (segs_toks (y :: s)).
    rewrite (IH ltac:(discriminate) H2 NS). reflexivity.
Qed.
Lemma parse_path_back p r : p_segs p <> [] -> Forall (fun x => segment_ok x = true) (p_segs p) -> not_sep r ->
  parse_path (path_toks p ++ r) = Some (p, r).
Proof.
  intros N F NS. destruct p as [ab s]. simpl in *. unfold path_toks. simpl. destruct ab.
  - simpl app. unfold parse_path. replace (is_sep ":" ":") with true by reflexivity.
    rewrite parse_segs_back by assumption. reflexivity.
  - unfold parse_path. pose proof (parse_segs_back s r N F NS) as E.
    destruct s as [|x s]; [contradiction|].
    destruct s; simpl app in *; rewrite E; reflexivity.
Qed.
Lemma parse_meta_back m : meta_ok m -> parse_meta (meta_toks m) = Some m.
Proof.
  intros (N & F & K). unfold parse_meta. destruct m as [p|p d g|p v]; simpl in *.
  - rewrite <- (app_nil_r (path_toks p)), parse_path_back by (assumption || exact I). reflexivity.
  - rewrite parse_path_back by (assumption || exact I). destruct d; try reflexivity. contradiction.
  - rewrite parse_path_back; try assumption.
    + destruct v; [contradiction|reflexivity].
    + simpl. destruct v as [|[x|x|x|d g] v]; try exact I. reflexivity.
Qed.
(** A path is no literal. *)
Lemma path_no_lit m : meta_ok m -> parse_lit (meta_toks m) = None.
Proof.
  intros (N & F & _). destruct m as [[ab p]|[ab p] d g|[ab p] v]; simpl in *; unfold path_toks; simpl;
    (destruct p as [|s p]; [contradiction|]); inversion F; subst; destruct ab; destruct p as [|s' p]; try reflexivity.
  simpl. unfold lit_bool. destruct (String.eqb_spec s "true") as [->|]; [discriminate|].
  destruct (String.eqb_spec s "false") as [->|]; [discriminate|]. reflexivity.
Qed.
Lemma parse_nested_back m : meta_ok m -> parse_nested (meta_toks m) = Some (NMeta m).
Proof. intros M. unfold parse_nested. rewrite (path_no_lit m M), (parse_meta_back m M). reflexivity. Qed.

Lemma digit_spec s : is_number s = true <-> digit_first s.
Proof.
  unfold digit_first, is_number. destruct s as [|c r].
  - split; [discriminate|]. intros (c & r & E & _). discriminate.
  - assert (H : is_digit c = true <-> In c ["0"; "1"; "2"; "3"; "4"; "5"; "6"; "7"; "8"; "9"]%char).
    { destruct c as [[] [] [] [] [] [] [] []]; compute; intuition discriminate. }
    rewrite H. split; [intros I; exists c, r; auto|]. intros (c' & r' & E & I). inversion E; subst. exact I.
Qed.
Lemma quote_is : quote = """"%char.
Proof. reflexivity. Qed.
Lemma lit_str_none s : lit_str s = None <-> forall r, s <> String """" r.
Proof.
  destruct s as [|c r]; simpl; [split; [discriminate|reflexivity]|].
  destruct (Ascii.eqb_spec c quote) as [->|N].
  - split; [discriminate|]. intros H. exfalso. exact (H r eq_refl).
  - split; [intros _ r' E; inversion E; subst; exact (N eq_refl)|reflexivity].
Qed.
Lemma lit_bool_spec s : lit_bool s <> None <-> s = "true" \/ s = "false".
Proof.
  unfold lit_bool. destruct (String.eqb_spec s "true"); [split; [auto|discriminate]|].
  destruct (String.eqb_spec s "false"); [split; [auto|discriminate]|].
  split; [intros H; contradiction|intuition].
Qed.
(** An item is a value form, and its text is the one written. *)
Lemma value_forms x s : (exists i, parse_nested x = Some i /\ item_text i = (written x, s)) <-> value_form x s.
Proof.
  rewrite written_show. split.
  - intros (i & P & T). destruct i as [l|m].
    + unfold parse_nested in P. destruct (parse_lit x) as [l'|] eqn:L; [|destruct (parse_meta x); discriminate].
      inversion P; subst l'. simpl in T. apply (f_equal snd) in T. simpl in T. subst s. clear P.
      unfold parse_lit in L. destruct x as [|[a|a|a|d g] r]; try discriminate.
      * destruct r; [|discriminate]. destruct (lit_bool a) eqn:B; [|discriminate]. inversion L; subst.
        assert (Q : l = "true" \/ l = "false") by (apply lit_bool_spec; congruence).
        replace (is_some (lit_str l)) with false by (destruct Q as [-> | ->]; reflexivity).
        apply vf_bool. exact Q.
      * destruct r as [|[b|b|b|d g] r]; try discriminate. destruct r; [|discriminate].
        destruct (String.eqb_spec a "-") as [->|]; [|discriminate]. simpl in L.
        destruct (is_number b) eqn:D; [|discriminate]. inversion L; subst. apply vf_neg. apply digit_spec. exact D.
      * destruct r; [|discriminate]. inversion L; subst. destruct (lit_str l) as [v|] eqn:Q.
        -- destruct l as [|c r]; [discriminate|]. simpl in Q. destruct (Ascii.eqb_spec c quote) as [->|]; [|discriminate].
           apply vf_str.
        -- apply vf_lit. apply lit_str_none. exact Q.
    + simpl in T. inversion T; subst s. destruct (parse_nested_inv _ _ P) as [-> (N & F & K)].
      destruct m as [p|p d g|p v]; simpl in *.
      * apply vf_path. apply any_path_toks; assumption.
      * apply vf_call; [apply any_path_toks; assumption|exact K].
      * apply vf_assign; [apply any_path_toks; assumption|exact K].
  - destruct 1 as [s|s N|s D|s B|p A|p d g A D|p v A D].
    + exists (NLit (String """" s)). split; [reflexivity|]. simpl. unfold show. simpl. rewrite !app_nil. reflexivity.
    + exists (NLit s). split; [reflexivity|]. simpl. rewrite (proj2 (lit_str_none s) N). simpl.
      unfold show. simpl. rewrite !app_nil. reflexivity.
    + eexists (NLit _). unfold parse_nested. simpl parse_lit. rewrite (proj2 (digit_spec s) D). split; reflexivity.
    + exists (NLit s). destruct B as [-> | ->]; split; reflexivity.
    + destruct (toks_of_path _ A) as (q & -> & N & F). exists (NMeta (SPath q)). split; [|reflexivity].
      apply (parse_nested_back (SPath q)). repeat split; assumption.
    + destruct (toks_of_path _ A) as (q & -> & N & F). exists (NMeta (SList q d g)). split; [|reflexivity].
      apply (parse_nested_back (SList q d g)). repeat split; assumption.
    + destruct (toks_of_path _ A) as (q & -> & N & F). exists (NMeta (SValue q v)). split; [|reflexivity].
      apply (parse_nested_back (SValue q v)). repeat split; assumption.
Qed.
Lemma item_written x i : parse_nested x = Some i -> fst (item_text i) = written x.
Proof.
  rewrite written_show. intros P. destruct i as [l|m].
  - unfold parse_nested in P. destruct (parse_lit x) as [l'|] eqn:L; [|destruct (parse_meta x); discriminate].
    inversion P; subst l'. simpl. unfold parse_lit in L. destruct x as [|[a|a|a|d g] r]; try discriminate.
    + destruct r; [|discriminate]. destruct (lit_bool a); inversion L; subst. unfold show. simpl. rewrite !app_nil. reflexivity.
    + destruct r as [|[b|b|b|d g] r]; try discriminate. destruct r; [|discriminate].
      destruct (String.eqb a "-" && is_number b); inversion L; subst. reflexivity.
    + destruct r; [|discriminate]. inversion L; subst. unfold show. simpl. rewrite !app_nil. reflexivity.
  - destruct (parse_nested_inv _ _ P) as [-> _]. reflexivity.
Qed.
(** What is in the parentheses. *)
Lemma default_list d g ts dv p : d <> DNone -> ts = g ->
  (default_arg (SList p d ts) = Some dv <->
   (g = [] /\ dv = mk_defarg false None false) \/
   (exists x s, arguments [x] g /\ value_form x s /\ dv = mk_defarg false (Some (written x)) s) \/
   (exists x s, arguments [[TIdent "off"]; x] g /\ value_form x s /\ dv = mk_defarg true (Some (written x)) s)).
Proof.
  intros D ->. simpl. split.
  - destruct (parse_meta_list g) as [items|] eqn:P; [|discriminate]. cbn [obind].
    destruct (accepted_arguments _ _ P) as (cs & A & AS). apply all_some_Forall2 in AS.
    destruct (off_first items) eqn:O; [|discriminate]. cbn [obind ensure].
    destruct AS as [|x i cs is P1 [|y j cs' js P2 [|]]].
    + simpl. intros E. inversion E. left. inversion A. auto.
    + simpl. destruct (item_text i) as [v s] eqn:T. intros E. inversion E; subst dv. right. left. exists x, s.
      split; [exact A|]. pose proof (item_written _ _ P1) as W. rewrite T in W. simpl in W. subst v. split; [|reflexivity].
      apply value_forms. exists i. auto.
    + simpl. destruct i as [l|[p'|p' d' g'|p' v']]; try discriminate. simpl in O.
      apply andb_true_iff in O. destruct O as [O1 O2]. apply negb_true_iff in O1. apply String.eqb_eq in O2.
      destruct (parse_nested_inv _ _ P1) as [-> (N & F & _)].
      pose proof (single_segment _ _ N O2 eq_refl) as Q. simpl in Q.
      destruct p' as [ab l]. simpl in *. subst ab l.
      destruct (item_text j) as [v s] eqn:T. simpl. intros E. inversion E; subst dv. right. right. exists y, s.
      split; [exact A|]. pose proof (item_written _ _ P2) as W. rewrite T in W. simpl in W. subst v. split; [|reflexivity].
      apply value_forms. exists j. auto.
    + simpl. destruct (item_text i), (item_text j). discriminate.
  - intros [[-> ->]|[(x & s & A & V & ->)|(x & s & A & V & ->)]].
    + reflexivity.
    + rewrite (arguments_list _ _ A), all_some_cons. apply value_forms in V. destruct V as (i & P & T). rewrite P.
      simpl. rewrite T. reflexivity.
    + rewrite (arguments_list _ _ A), !all_some_cons. apply value_forms in V. destruct V as (i & P & T). rewrite P.
      rewrite nested_word by reflexivity. simpl. rewrite T. reflexivity.
Qed.
Lemma default_arg_form c m dv : parse_nested c = Some (NMeta m) -> meta_name m = "default" ->
  (default_arg m = Some dv <-> default_form dv c).
Proof.
  intros P E. destruct (parse_nested_inv _ _ P) as [T M].
  pose proof (meta_argument m "default" M E eq_refl) as A. rewrite <- T in A. split.
  - destruct m as [p|p d g|p v].
    + intros H. inversion H; subst. apply df_word. exact A.
    + destruct M as (_ & _ & M). simpl in M. rewrite (default_list d g g dv p M eq_refl).
      intros [[-> ->]|[(x & s & Ax & V & ->)|(x & s & Ax & V & ->)]].
      * apply df_empty with d; assumption.
      * apply df_value with d g; assumption.
      * apply df_off with d g; assumption.
    + discriminate.
  - intros K. destruct K as [c A'|c d D A'|c d g x s D A' Ax V|c d g x s D A' Ax V].
    + destruct (argument_parsed "default" _ _ eq_refl A' I) as (ab & Q). rewrite P in Q. inversion Q; subst. reflexivity.
    + destruct (argument_parsed "default" _ _ eq_refl A' I) as (ab & Q). rewrite P in Q.
      destruct d; try contradiction; inversion Q; subst; reflexivity.
    + destruct (argument_parsed "default" _ _ eq_refl A' I) as (ab & Q). rewrite P in Q.
      assert (m = SList (mk_path ab ["default"]) d g) as -> by (destruct d; try contradiction; inversion Q; reflexivity).
      apply (default_list d g g _ _ D eq_refl). right. left. exists x, s. auto.
    + destruct (argument_parsed "default" _ _ eq_refl A' I) as (ab & Q). rewrite P in Q.
      assert (m = SList (mk_path ab ["default"]) d g) as -> by (destruct d; try contradiction; inversion Q; reflexivity).
      apply (default_list d g g _ _ D eq_refl). right. right. exists x, s. auto.
Qed.
Lemma default_read ft i v t a l f : read_field ft i v t a l = Some f ->
  exists cs, gathered l cs /\
    (forall dv, f_default f = Some dv <-> exists c, In c cs /\ default_form dv c) /\
    (forall c r, In c cs -> argument_for "default" c r -> exists dv, default_form dv c).
Proof.
  intros H. destruct (read_field_inv _ _ _ _ _ _ _ H) as (cs & items & seen & f0 & A & AS & C & S & -> & _ & _).
  exists cs. split; [exact A|]. pose proof (field_of_inv _ _ _ _ _ _ S) as Q.
  assert (O : opt_arg seen "default" default_arg = Some (f_default (marked l f0))).
  { destruct (marked_same l f0) as (_ & _ & _ & _ & _ & _ & _ & _ & _ & E & _). rewrite E. tauto. }
  assert (N : forall c r, In c cs -> argument_for "default" c r ->
     exists m, parse_nested c = Some (NMeta m) /\ meta_name m = "default" /\ assoc "default" seen = Some m).
  { intros c r J F. destruct (accepted_named cs field_names items seen c "default" r AS C eq_refl J F) as (m & P & E & _ & X).
    exists m. auto. }
  split.
  - intros dv. rewrite (opt_given _ _ _ _ _ _ _ dv AS C O). split.
    + intros (c & m & J & P & E & F). exists c. split; [exact J|]. apply (default_arg_form c m dv P E). exact F.
    + intros (c & J & F). assert (R : exists r, argument_for "default" c r) by (destruct F; eauto).
      destruct R as (r & R). destruct (N c r J R) as (m & P & E & _). exists c, m.
      split; [exact J|]. split; [exact P|]. split; [exact E|]. apply (default_arg_form c m dv P E). exact F.
  - intros c r J R. destruct (N c r J R) as (m & P & E & X). unfold opt_arg in O. rewrite X in O.
    destruct (default_arg m) as [dv|] eqn:F; [|discriminate]. exists dv. apply (default_arg_form c m dv P E). exact F.
Qed.
