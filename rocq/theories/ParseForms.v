(** Which tokens stand for an argument, what a repeated argument does, and the words with
    nothing in parentheses. *)
From Coq Require Import List Bool String Ascii Permutation Lia.
From Verif Require Import ArgsModel ArgsSpec ArgsProofs TokenSpec TokenModel ParseModel ParseSpec ParseFacts ParseProofs.
Import ListNotations.
Open Scope string_scope.
Open Scope list_scope.

(** ** Lists of arguments that parse *)
Lemma is_comma t : t = comma \/ t <> comma.
Proof.
  destruct t as [s|s|s|d l]; try (right; discriminate). unfold comma.
  destruct (String.eqb_spec s ","); [left; subst; reflexivity|right; congruence].
Qed.
Lemma has_comma ts : In comma ts \/ ~ In comma ts.
Proof.
  induction ts as [|t ts [IH|IH]]; [right; intros []|left; right; exact IH|].
  destruct (is_comma t) as [-> | N]; [left; left; reflexivity|right; intros [E|I]; contradiction].
Qed.
Lemma first_comma ts : In comma ts -> exists a r, ts = a ++ comma :: r /\ ~ In comma a.
Proof.
  induction ts as [|t ts IH]; [intros []|]. intros I.
  destruct (is_comma t) as [-> | N].
  - exists [], ts. split; [reflexivity|intros []].
  - destruct I as [E|I]; [contradiction|]. destruct (IH I) as (a & r & -> & H).
    exists (t :: a), r. split; [reflexivity|]. intros [E|J]; contradiction.
Qed.
Lemma terminated_arguments : forall n ts, List.length ts <= n ->
  (forall c, In c (terminated ts) -> c <> []) -> arguments (terminated ts) ts.
Proof.
  induction n as [|n IH]; intros ts L H.
  - destruct ts; [constructor|simpl in L; lia].
  - destruct (has_comma ts) as [I|I].
    + destruct (first_comma _ I) as (a & r & -> & N).
      assert (E : terminated (a ++ comma :: r) = a :: terminated r).
      { unfold terminated. rewrite split_app by exact N. apply drop_cons. apply split_nonempty. }
      rewrite E in *. constructor.
      * split; [apply H; left; reflexivity|exact N].
      * apply IH; [rewrite app_length in L; simpl in L; lia|]. intros c J. apply H. right. exact J.
    + assert (E : terminated ts = match ts with [] => [] | _ => [ts] end).
      { unfold terminated. rewrite split_plain by exact I. destruct ts; reflexivity. }
      rewrite E. destruct ts; [constructor|]. constructor. split; [discriminate|exact I].
Qed.
Lemma accepted_arguments ts items : parse_meta_list ts = Some items ->
  exists cs, arguments cs ts /\ all_some parse_nested cs = Some items.
Proof.
  intros H. exists (terminated ts). split; [|exact H].
  apply (terminated_arguments (List.length ts)); [lia|]. intros c I ->.
  unfold parse_meta_list in H. destruct (all_some_In _ _ _ _ H I) as (b & _ & E). discriminate.
Qed.
Lemma arguments_each cs ts c : arguments cs ts -> In c cs -> one_argument c.
Proof. induction 1; simpl; [tauto| |]; intros [<-|I]; auto. destruct I. Qed.

(** ** What was parsed *)
Lemma sep_spec a b : is_sep a b = true -> a = ":" /\ b = ":".
Proof. intros H. apply andb_true_iff in H. destruct H as [H1 H2]. apply String.eqb_eq in H1, H2. auto. Qed.
Lemma parse_segs_inv : forall k ts l q, List.length ts <= k -> parse_segs ts = Some (l, q) ->
  ts = segs_toks l ++ q /\ l <> [] /\ Forall (fun s => segment_ok s = true) l.
Proof.
  induction k as [|k IH]; intros ts l q L H.
  - destruct ts; [discriminate|simpl in L; lia].
  - destruct ts as [|[s|s|s|d g] r]; try discriminate. simpl in H, L.
    destruct (segment_ok s) eqn:S; [|discriminate].
    assert (P : Some ([s], r) = Some (l, q) -> TIdent s :: r = segs_toks l ++ q /\ l <> [] /\
                Forall (fun s => segment_ok s = true) l).
    { intros E. inversion E; subst. split; [reflexivity|]. split; [discriminate|]. constructor; [exact S|constructor]. }
    destruct r as [|[a|a|a|d g] r]; try (apply P; exact H).
    destruct r as [|[b|b|b|d g] r]; try (apply P; exact H).
    destruct (is_sep a b) eqn:E; [|apply P; exact H].
    destruct (parse_segs r) as [[l' q']|] eqn:R; [|discriminate]. inversion H; subst.
    simpl in L. destruct (IH r l' q ltac:(lia) R) as (-> & N & F). apply sep_spec in E. destruct E as [-> ->].
    split; [|split; [discriminate|constructor; assumption]].
    destruct l'; [contradiction|]. reflexivity.
Qed.
Lemma parse_path_inv ts p q : parse_path ts = Some (p, q) ->
  ts = path_toks p ++ q /\ p_segs p <> [] /\ Forall (fun s => segment_ok s = true) (p_segs p).
Proof.
  intros H. unfold parse_path in H.
  assert (P : forall ts, option_map (fun x => (mk_path false (fst x), snd x)) (parse_segs ts) = Some (p, q) ->
    ts = path_toks p ++ q /\ p_segs p <> [] /\ Forall (fun s => segment_ok s = true) (p_segs p)).
  { clear. intros ts H. destruct (parse_segs ts) as [[l r]|] eqn:E; [|discriminate]. inversion H; subst.
    exact (parse_segs_inv _ ts l q (le_n _) E). }
  destruct ts as [|[a|a|a|d g] ts]; try (apply P; exact H).
  destruct ts as [|[b|b|b|d g] ts]; try (apply P; exact H).
  destruct (is_sep a b) eqn:E; [|discriminate]. apply sep_spec in E. destruct E as [-> ->].
  destruct (parse_segs ts) as [[l r]|] eqn:R; [|discriminate]. inversion H; subst.
  destruct (parse_segs_inv _ ts l q (le_n _) R) as (-> & N & F). split; [reflexivity|]. split; assumption.
Qed.
(** What a parsed item looks like. *)
Definition meta_ok (m : smeta) : Prop :=
  p_segs (meta_path m) <> [] /\ Forall (fun s => segment_ok s = true) (p_segs (meta_path m)) /\
  match m with SPath _ => True | SList _ d _ => d <> DNone | SValue _ v => v <> [] end.
Lemma parse_meta_inv ts m : parse_meta ts = Some m -> ts = meta_toks m /\ meta_ok m.
Proof.
  unfold parse_meta. destruct (parse_path ts) as [[p q]|] eqn:P; [|discriminate]. simpl.
  apply parse_path_inv in P. destruct P as (-> & N & F). destruct q as [|t q].
  - intros E. inversion E; subst. split; [apply app_nil_r|]. repeat split; assumption.
  - destruct t as [s|s|s|d g].
    + discriminate.
    + destruct (String.eqb_spec s "=") as [->|]; [|discriminate]. destruct q as [|t q]; [discriminate|].
      intros E. inversion E; subst. split; [reflexivity|]. repeat split; try assumption. discriminate.
    + discriminate.
    + destruct q; [|discriminate]. destruct d; try discriminate; intros E; inversion E; subst;
        (split; [reflexivity|]; repeat split; try assumption; discriminate).
Qed.
Lemma parse_nested_inv ts m : parse_nested ts = Some (NMeta m) -> ts = meta_toks m /\ meta_ok m.
Proof.
  unfold parse_nested. destruct (parse_lit ts); [discriminate|].
  destruct (parse_meta ts) as [m'|] eqn:E; [|discriminate]. intros H. inversion H; subst.
  apply parse_meta_inv. exact E.
Qed.

(** ** Names without colons *)
Fixpoint no_colon (s : string) : bool :=
  match s with EmptyString => true | String c r => negb (Ascii.eqb c ":"%char) && no_colon r end.
Lemma no_colon_app a b : no_colon (a ++ b)%string = no_colon a && no_colon b.
Proof. induction a as [|c a IH]; [reflexivity|]. simpl. rewrite IH. apply andb_assoc. Qed.
Lemma single_segment l n : l <> [] -> String.concat "::" l = n -> no_colon n = true -> l = [n].
Proof.
  destruct l as [|a [|b l]]; intros N E C; [contradiction| |].
  - simpl in E. subst. reflexivity.
  - exfalso. change (String.concat "::" (a :: b :: l)) with (a ++ "::" ++ String.concat "::" (b :: l))%string in E.
    subst n. rewrite !no_colon_app in C. simpl in C. rewrite andb_false_r in C. discriminate.
Qed.
Lemma meta_argument m n : meta_ok m -> meta_name m = n -> no_colon n = true ->
  argument_for n (meta_toks m)
    match m with SPath _ => [] | SList _ d ts => [TGroup d ts] | SValue _ v => TPunct "=" :: v end.
Proof.
  intros (N & _ & _) E C. unfold meta_name, path_name in E. pose proof (single_segment _ _ N E C) as S.
  destruct m as [[ab p]|[ab p] d ts|[ab p] v]; simpl in S; subst p; destruct ab; constructor.
Qed.
(** The other way: an argument for a name without colons is parsed as one. *)
Lemma argument_tokens n c r : argument_for n c r ->
  exists ab, c = path_toks (mk_path ab [n]) ++ r.
Proof. destruct 1; [exists false|exists true]; reflexivity. Qed.
Definition not_sep (r : list tok) : Prop :=
  match r with TPunct a :: TPunct b :: _ => is_sep a b = false | _ => True end.
Lemma parse_segs_one n r : segment_ok n = true -> not_sep r -> parse_segs (TIdent n :: r) = Some ([n], r).
Proof.
  intros S N. simpl. rewrite S. destruct r as [|[a|a|a|d g] r]; try reflexivity.
  destruct r as [|[b|b|b|d g] r]; try reflexivity. simpl in N. rewrite N. reflexivity.
Qed.
Lemma parse_path_one ab n r : segment_ok n = true -> not_sep r ->
  parse_path (path_toks (mk_path ab [n]) ++ r) = Some (mk_path ab [n], r).
Proof.
  intros S N. destruct ab.
  - simpl path_toks. simpl app. unfold parse_path. replace (is_sep ":" ":") with true by reflexivity.
    rewrite parse_segs_one by assumption. reflexivity.
  - change (path_toks (mk_path false [n]) ++ r) with (TIdent n :: r). unfold parse_path.
    rewrite parse_segs_one by assumption. reflexivity.
Qed.
Lemma not_literal n c r : segment_ok n = true -> argument_for n c r -> parse_lit c = None.
Proof.
  intros S [r'|r'].
  - destruct r'; [|reflexivity]. simpl. unfold lit_bool.
    destruct (String.eqb_spec n "true") as [->|]; [discriminate|].
    destruct (String.eqb_spec n "false") as [->|]; [discriminate|]. reflexivity.
  - reflexivity.
Qed.
Definition built (ab : bool) (n : string) (r : list tok) : option smeta :=
  match r with
  | [] => Some (SPath (mk_path ab [n]))
  | [TGroup d g] => match d with DNone => None | _ => Some (SList (mk_path ab [n]) d g) end
  | TPunct e :: v =>
      if String.eqb e "=" then match v with [] => None | _ => Some (SValue (mk_path ab [n]) v) end else None
  | _ => None
  end.
Lemma argument_parsed n c r : segment_ok n = true -> argument_for n c r -> not_sep r ->
  exists ab, parse_nested c = option_map NMeta (built ab n r).
Proof.
  intros S A N. destruct (argument_tokens _ _ _ A) as (ab & ->). exists ab.
  unfold parse_nested. rewrite (not_literal _ _ _ S A).
  unfold parse_meta. rewrite parse_path_one by assumption. reflexivity.
Qed.

(** ** Arguments given *)
Lemma value_list ts off :
  extract_literals value_from_list (fun _ _ => None) ts = Some off <->
  (ts = [] /\ off = false) \/ (exists o, arguments [o] ts /\ argument_for "off" o [] /\ off = true).
Proof.
  split.
  - unfold extract_literals. destruct (parse_meta_list ts) as [items|] eqn:P; [|discriminate]. simpl.
    destruct (value_from_list (non_literals items)) as [o|] eqn:V; [|discriminate]. simpl.
    destruct (literals items) as [|x l] eqn:L; [|discriminate]. intros E. inversion E; subst o. clear E.
    assert (NL : non_literals items = items).
    { clear - L. induction items as [|[x|m] r IH]; [reflexivity|discriminate|]. simpl. rewrite IH; [reflexivity|exact L]. }
    rewrite NL in V. unfold value_from_list in V.
    destruct (collect ["off"] [] items) as [seen|] eqn:C; [|discriminate]. simpl in V.
    destruct (accepted_arguments _ _ P) as (cs & A & AS). apply collect_nil in C.
    destruct C as (ms & -> & K & D & ->). destruct ms as [|m [|m' ms]].
    + left. apply all_some_Forall2 in AS. inversion AS; subst. inversion A; subst. split; [reflexivity|].
      inversion V. reflexivity.
    + right. apply all_some_Forall2 in AS. inversion AS as [|c x cs' y E F]; subst. inversion F; subst.
      inversion K as [|x l I _]; subst. destruct I as [I|[]].
      unfold flag in V. rewrite (proj2 (assoc_entries "off" [m] m D)) in V by (split; [left; reflexivity|symmetry; exact I]).
      destruct m as [p|p d g|p v]; try discriminate. inversion V; subst.
      destruct (parse_nested_inv _ _ E) as [-> M]. exists (meta_toks (SPath p)).
      split; [exact A|]. split; [|reflexivity]. exact (meta_argument (SPath p) "off" M (eq_sym I) eq_refl).
    + exfalso. inversion K as [|x l I K']; subst. inversion K' as [|x l I' _]; subst.
      destruct I as [I|[]]. destruct I' as [I'|[]]. inversion D; subst. apply H1. left. congruence.
  - intros [[-> ->]|(o & A & F & ->)]; [reflexivity|].
    unfold extract_literals. rewrite (arguments_list _ _ A). simpl.
    destruct (argument_parsed "off" o [] eq_refl F I) as (ab & ->). reflexivity.
Qed.
Lemma name_segment m n : meta_ok m -> meta_name m = n -> no_colon n = true -> segment_ok n = true.
Proof.
  intros (N & F & _) E C. unfold meta_name, path_name in E. pose proof (single_segment _ _ N E C) as S.
  rewrite S in F. inversion F; subst. assumption.
Qed.
Lemma bool_arg_form c m n b : parse_nested c = Some (NMeta m) -> meta_name m = n -> no_colon n = true ->
  (bool_arg m = Some b <-> keyword_form n b c).
Proof.
  intros P E C. destruct (parse_nested_inv _ _ P) as [T M].
  pose proof (meta_argument m n M E C) as A. rewrite <- T in A. pose proof (name_segment m n M E C) as S. split.
  - unfold bool_arg. destruct m as [p|p d ts|p v]; simpl.
    + intros H. inversion H; subst. apply kw_word. exact A.
    + destruct (extract_literals value_from_list (fun _ _ => None) ts) as [off|] eqn:X; [|discriminate].
      simpl. intros H. inversion H; subst b. destruct M as (_ & _ & M). apply value_list in X.
      destruct X as [[-> ->]|(o & Ao & Fo & ->)].
      * apply kw_empty with d; assumption.
      * apply kw_off with d o ts; assumption.
    + discriminate.
  - intros K. destruct K as [c A'|c d D A'|c d o ts D A' Ao Fo].
    + destruct (argument_parsed _ _ _ S A' I) as (ab & Q). rewrite P in Q. inversion Q; subst. reflexivity.
    + destruct (argument_parsed _ _ _ S A' I) as (ab & Q). rewrite P in Q.
      destruct d; try contradiction; inversion Q; subst; reflexivity.
    + destruct (argument_parsed _ _ _ S A' I) as (ab & Q). rewrite P in Q.
      assert (X : extract_literals value_from_list (fun _ _ => None) ts = Some true).
      { apply value_list. right. exists o. auto. }
      destruct d; try contradiction; inversion Q; subst; unfold bool_arg; simpl; rewrite X; reflexivity.
Qed.

Lemma given_assoc cs known items seen n m : all_some parse_nested cs = Some items ->
  collect known [] items = Some seen ->
  assoc n seen = Some m <-> exists c, In c cs /\ parse_nested c = Some (NMeta m) /\ meta_name m = n.
Proof.
  intros AS C. apply collect_nil in C. destruct C as (ms & -> & K & D & ->).
  rewrite assoc_entries by exact D. split.
  - intros [I E]. apply (in_map NMeta) in I. destruct (all_some_In_r _ _ _ _ AS I) as (c & J & P).
    exists c. auto.
  - intros (c & J & P & E). split; [|exact E]. destruct (all_some_In _ _ _ _ AS J) as (i & I & Q).
    rewrite P in Q. inversion Q; subst. apply in_map_iff in I. destruct I as (x & X & I). inversion X; subst. exact I.
Qed.
Lemma opt_given {A} cs known items seen n (f : smeta -> option A) o v :
  all_some parse_nested cs = Some items -> collect known [] items = Some seen ->
  opt_arg seen n f = Some o ->
  (o = Some v <-> exists c m, In c cs /\ parse_nested c = Some (NMeta m) /\ meta_name m = n /\ f m = Some v).
Proof.
  intros AS C H. unfold opt_arg in H. split.
  - intros ->. destruct (assoc n seen) as [m|] eqn:E; [|discriminate].
    destruct (f m) eqn:F; [|discriminate]. inversion H; subst.
    apply (given_assoc _ _ _ _ _ _ AS C) in E. destruct E as (c & J & P & N). exists c, m. auto.
  - intros (c & m & J & P & N & F). assert (E : assoc n seen = Some m).
    { apply (given_assoc _ _ _ _ _ _ AS C). exists c. auto. }
    rewrite E, F in H. inversion H. reflexivity.
Qed.

(** Every question asked for the two attributes. *)
Lemma sargs_of_inv seen s : sargs_of seen = Some s ->
  opt_arg seen "mode" mode_arg = Some (s_mode s) /\
  opt_arg seen "sync" bool_arg = Some (s_mode_sync s) /\
  opt_arg seen "r#async" bool_arg = Some (s_mode_async s) /\
  opt_arg seen "builder" (builder_arg true) = Some (s_builder s) /\
  opt_arg seen "into" bool_arg = Some (s_into s) /\
  opt_arg seen "no_new" bool_arg = Some (s_no_new s) /\
  opt_arg seen "default" bool_arg = Some (s_default s) /\
  opt_arg seen "rc" helper_arg = Some (s_rc s) /\
  opt_arg seen "attributes" attributes_arg = Some (s_attributes s) /\
  opt_arg seen "attributes_impl" attributes_arg = Some (s_attributes_impl s) /\
  opt_arg seen "fallible" fallible_arg = Some (s_fallible s) /\
  opt_arg seen "lazy" helper_arg = Some (s_lazy s) /\
  opt_arg seen "get" accessor_arg = Some (s_accessor s) /\
  opt_arg seen "get_mut" helper_arg = Some (s_accessor_mut s) /\
  opt_arg seen "set" setter_arg = Some (s_setter s) /\
  opt_arg seen "reader" helper_arg = Some (s_reader s) /\
  opt_arg seen "writer" helper_arg = Some (s_writer s) /\
  opt_arg seen "clearer" helper_arg = Some (s_clearer s) /\
  opt_arg seen "predicate" helper_arg = Some (s_predicate s) /\
  opt_arg seen "optional" bool_arg = Some (s_optional s) /\
  opt_arg seen "public" pub_arg = Some (s_public s) /\
  opt_arg seen "private" bool_arg = Some (s_private s) /\
  opt_arg seen "clone" bool_arg = Some (s_clone s) /\
  opt_arg seen "copy" bool_arg = Some (s_copy s) /\
  opt_arg seen "lock" bool_arg = Some (s_lock s) /\
  opt_arg seen "inner_mut" bool_arg = Some (s_inner_mut s) /\
  opt_arg seen "serde" serde_arg = Some (s_serde s).
Proof.
  unfold sargs_of.
  repeat match goal with
  | |- obind ?e _ = _ -> _ => destruct e; [cbn [obind]|discriminate]
  end.
  intros H. inversion H; subst. repeat split.
Qed.
Lemma field_of_inv i v t a seen f : field_of i v t a seen = Some f ->
  flag seen "skip" = Some (f_skip f) /\
  opt_arg seen "mode" mode_arg = Some (f_mode f) /\
  opt_arg seen "sync" bool_arg = Some (f_mode_sync f) /\
  opt_arg seen "r#async" bool_arg = Some (f_mode_async f) /\
  opt_arg seen "attributes_fn" attributes_arg = Some (f_attributes_fn f) /\
  opt_arg seen "fallible" fallible_arg = Some (f_fallible f) /\
  opt_arg seen "lazy" helper_arg = Some (f_lazy f) /\
  opt_arg seen "rename" string_arg = Some (f_base_name f) /\
  opt_arg seen "get" accessor_arg = Some (f_accessor f) /\
  opt_arg seen "get_mut" helper_arg = Some (f_accessor_mut f) /\
  opt_arg seen "set" setter_arg = Some (f_setter f) /\
  opt_arg seen "reader" helper_arg = Some (f_reader f) /\
  opt_arg seen "writer" helper_arg = Some (f_writer f) /\
  opt_arg seen "clearer" helper_arg = Some (f_clearer f) /\
  opt_arg seen "predicate" helper_arg = Some (f_predicate f) /\
  opt_arg seen "optional" bool_arg = Some (f_optional f) /\
  opt_arg seen "public" pub_arg = Some (f_public f) /\
  opt_arg seen "private" bool_arg = Some (f_private f) /\
  opt_arg seen "default" default_arg = Some (f_default f) /\
  opt_arg seen "builder" (builder_arg false) = Some (f_builder f) /\
  opt_arg seen "into" bool_arg = Some (f_into f) /\
  opt_arg seen "clone" bool_arg = Some (f_clone f) /\
  opt_arg seen "copy" bool_arg = Some (f_copy f) /\
  opt_arg seen "lock" bool_arg = Some (f_lock f) /\
  opt_arg seen "inner_mut" bool_arg = Some (f_inner_mut f) /\
  opt_arg seen "serde" serde_arg = Some (f_serde f).
Proof.
  unfold field_of.
  repeat match goal with
  | |- obind ?e _ = _ -> _ => destruct e; [cbn [obind]|discriminate]
  end.
  intros H. inversion H; subst. repeat split.
Qed.

(** ** The attributes as wholes *)
Lemma read_struct_inv ft ts s : read_struct ft ts = Some s ->
  exists cs items seen, arguments cs ts /\ all_some parse_nested cs = Some items /\
    collect struct_names [] items = Some seen /\ sargs_of seen = Some s /\
    sargs_errors s = [] /\ features_ok ft (s_mode_sync s) (s_mode_async s) (s_serde s) = true.
Proof.
  unfold read_struct. destruct (parse_meta_list ts) as [items|] eqn:P; [|discriminate]. cbn [obind].
  destruct (collect struct_names [] items) as [seen|] eqn:C; [|discriminate]. cbn [obind].
  destruct (sargs_of seen) as [s'|] eqn:S; [|discriminate]. cbn [obind].
  destruct (sargs_errors s') eqn:E; [|discriminate]. cbn [obind ensure].
  destruct (features_ok ft (s_mode_sync s') (s_mode_async s') (s_serde s')) eqn:F; [|discriminate]. cbn.
  intros H. inversion H; subst s'. destruct (accepted_arguments _ _ P) as (cs & A & AS).
  exists cs, items, seen. auto 10.
Qed.
Lemma gathered_items l cs : gathered l cs -> field_items l = all_some parse_nested cs.
Proof.
  induction 1 as [|l cs G IH|ts l cs ds A G IH]; [reflexivity|exact IH|].
  simpl. rewrite (arguments_list _ _ A), IH. clear. induction cs as [|c cs IH].
  - simpl. destruct (all_some parse_nested ds); reflexivity.
  - simpl app. rewrite !all_some_cons. destruct (parse_nested c) as [i|]; [|reflexivity].
    destruct (all_some parse_nested cs) as [x|].
    + simpl in *. destruct (all_some parse_nested ds); simpl in *; rewrite <- IH; reflexivity.
    + simpl in *. rewrite <- IH. reflexivity.
Qed.
Lemma items_gathered l items : field_items l = Some items ->
  exists cs, gathered l cs /\ all_some parse_nested cs = Some items.
Proof.
  revert items. induction l as [|[|ts|ts] l IH]; intros items H.
  - exists []. split; [constructor|]. exact H.
  - destruct (IH _ H) as (cs & G & E). exists cs. split; [constructor; exact G|exact E].
  - simpl in H. destruct (parse_meta_list ts) as [a|] eqn:P; [|discriminate]. simpl in H.
    destruct (field_items l) as [b|] eqn:F; [|discriminate]. simpl in H. inversion H; subst.
    destruct (IH _ eq_refl) as (ds & G & E). destruct (accepted_arguments _ _ P) as (cs & A & AS).
    exists (cs ++ ds). split; [constructor; assumption|]. apply all_some_app; assumption.
  - discriminate.
Qed.
Definition marked (l : list fattr) (f : field) : field := if existsb is_word l then mark_implicitly f else f.
Lemma read_field_inv ft i v t a l f : read_field ft i v t a l = Some f ->
  exists cs items seen f0, gathered l cs /\ all_some parse_nested cs = Some items /\
    collect field_names [] items = Some seen /\ field_of i v t a seen = Some f0 /\ f = marked l f0 /\
    field_errors f = [] /\ features_ok ft (f_mode_sync f) (f_mode_async f) (f_serde f) = true.
Proof.
  unfold read_field. destruct (field_items l) as [items|] eqn:P; [|discriminate]. cbn [obind].
  destruct (collect field_names [] items) as [seen|] eqn:C; [|discriminate]. cbn [obind].
  destruct (field_of i v t a seen) as [f0|] eqn:S; [|discriminate]. cbn [obind].
  change (if existsb is_word l then mark_implicitly f0 else f0) with (marked l f0).
  destruct (field_errors (marked l f0)) eqn:E; [|discriminate]. cbn [obind ensure].
  destruct (features_ok ft (f_mode_sync (marked l f0)) (f_mode_async (marked l f0)) (f_serde (marked l f0))) eqn:F;
    [|discriminate]. cbn.
  intros H. inversion H; subst. destruct (items_gathered _ _ P) as (cs & A & AS).
  exists cs, items, seen, f0. auto 10.
Qed.
(** A bare word touches nothing but lazy, clearer and predicate. *)
Lemma marked_same l f :
  f_mode_sync (marked l f) = f_mode_sync f /\ f_mode_async (marked l f) = f_mode_async f /\
  f_optional (marked l f) = f_optional f /\ f_private (marked l f) = f_private f /\
  f_into (marked l f) = f_into f /\ f_clone (marked l f) = f_clone f /\ f_copy (marked l f) = f_copy f /\
  f_lock (marked l f) = f_lock f /\ f_inner_mut (marked l f) = f_inner_mut f /\
  f_default (marked l f) = f_default f /\ f_serde (marked l f) = f_serde f.
Proof. unfold marked, mark_implicitly. destruct (existsb is_word l), (f_lazy f); repeat split. Qed.

(** ** Keywords *)
Lemma argument_for_fun n k c r q : argument_for n c r -> argument_for k c q -> n = k /\ r = q.
Proof. intros H K. inversion H; subst; inversion K; subst; auto. Qed.
Lemma accepted_named cs known items seen c n r :
  all_some parse_nested cs = Some items -> collect known [] items = Some seen ->
  forallb no_colon known = true -> In c cs -> argument_for n c r ->
  exists m, parse_nested c = Some (NMeta m) /\ meta_name m = n /\ In n known /\ assoc n seen = Some m.
Proof.
  intros AS C K J A. pose proof C as C'. apply collect_nil in C. destruct C as (ms & -> & F & D & ->).
  destruct (all_some_In _ _ _ _ AS J) as (i & I & P). apply in_map_iff in I. destruct I as (m & <- & I).
  rewrite Forall_forall in F. pose proof (F _ I) as N. rewrite forallb_forall in K. pose proof (K _ N) as C.
  destruct (parse_nested_inv _ _ P) as [T M]. pose proof (meta_argument m _ M eq_refl C) as A'. rewrite <- T in A'.
  destruct (argument_for_fun _ _ _ _ _ A A') as [E _]. exists m. rewrite <- E in N.
  split; [exact P|]. split; [symmetry; exact E|]. split; [exact N|].
  apply (given_assoc _ _ _ _ _ _ AS C'). exists c. auto.
Qed.
Lemma keyword_read cs known items seen n o :
  all_some parse_nested cs = Some items -> collect known [] items = Some seen -> no_colon n = true ->
  opt_arg seen n bool_arg = Some o ->
  forall b, o = Some b <-> exists c, In c cs /\ keyword_form n b c.
Proof.
  intros AS C K H b. rewrite (opt_given _ _ _ _ _ _ _ b AS C H). split.
  - intros (c & m & J & P & N & F). exists c. split; [exact J|]. apply (bool_arg_form c m n b P N K). exact F.
  - intros (c & J & F).
    assert (A : exists r, argument_for n c r /\ not_sep r).
    { destruct F; eexists; (split; [eassumption|exact I]). }
    destruct A as (r & A & NS). destruct (all_some_In _ _ _ _ AS J) as (i & I & P).
    assert (M : exists m, i = NMeta m).
    { apply collect_nil in C. destruct C as (ms & -> & _). apply in_map_iff in I. destruct I as (m & <- & _). eauto. }
    destruct M as (m & ->). destruct (parse_nested_inv _ _ P) as [T M].
    assert (S : segment_ok n = true).
    { destruct M as (N & Q & _). destruct (argument_tokens _ _ _ A) as (ab & E). rewrite T in E.
      destruct m as [[ab' l]|[ab' l] d g|[ab' l] v]; simpl in N, Q, E; unfold path_toks in E; simpl in E;
        (destruct l as [|x l]; [contradiction|]); inversion Q; subst; destruct ab, ab', l; simpl in E;
        inversion E; subst; assumption. }
    destruct (argument_parsed _ _ _ S A NS) as (ab & E). rewrite P in E.
    assert (N : meta_name m = n).
    { destruct r as [|[x|x|x|d g] r]; simpl in E; try discriminate.
      - inversion E. reflexivity.
      - destruct (String.eqb x "="); [|discriminate]. destruct r; [discriminate|]. inversion E. reflexivity.
      - destruct r; [|discriminate]. destruct d; try discriminate; inversion E; reflexivity. }
    exists c, m. split; [exact J|]. split; [exact P|]. split; [exact N|].
    apply (bool_arg_form c m n b P N K). exact F.
Qed.
Lemma keyword_only cs known items seen n o c r :
  all_some parse_nested cs = Some items -> collect known [] items = Some seen ->
  forallb no_colon known = true -> no_colon n = true ->
  opt_arg seen n bool_arg = Some o -> In c cs -> argument_for n c r -> exists b, keyword_form n b c.
Proof.
  intros AS C K Kn H J A. destruct (accepted_named _ _ _ _ _ _ _ AS C K J A) as (m & P & N & _ & E).
  unfold opt_arg in H. rewrite E in H. destruct (bool_arg m) as [b|] eqn:B; [|discriminate].
  exists b. apply (bool_arg_form c m n b P N Kn). exact B.
Qed.
Lemma struct_keywords_read ft ts s : read_struct ft ts = Some s ->
  exists cs, arguments cs ts /\ forall n get, In (n, get) struct_keywords ->
    (forall b, get s = Some b <-> exists c, In c cs /\ keyword_form n b c) /\
    (forall c r, In c cs -> argument_for n c r -> exists b, keyword_form n b c).
Proof.
  intros H. destruct (read_struct_inv _ _ _ H) as (cs & items & seen & A & AS & C & S & _ & _).
  exists cs. split; [exact A|]. intros n get I. pose proof (sargs_of_inv _ _ S) as Q.
  assert (O : opt_arg seen n bool_arg = Some (get s) /\ no_colon n = true).
  { simpl in I. repeat (destruct I as [I|I]; [inversion I; subst; split; [tauto|reflexivity]|]). destruct I. }
  destruct O as [O N]. split.
  - apply (keyword_read cs struct_names items seen n (get s) AS C N O).
  - intros c r. apply (keyword_only cs struct_names items seen n (get s) c r AS C eq_refl N O).
Qed.
Lemma field_keywords_read ft i v t a l f : read_field ft i v t a l = Some f ->
  exists cs, gathered l cs /\ forall n get, In (n, get) field_keywords ->
    (forall b, get f = Some b <-> exists c, In c cs /\ keyword_form n b c) /\
    (forall c r, In c cs -> argument_for n c r -> exists b, keyword_form n b c).
Proof.
  intros H. destruct (read_field_inv _ _ _ _ _ _ _ H) as (cs & items & seen & f0 & A & AS & C & S & -> & _ & _).
  exists cs. split; [exact A|]. intros n get I. pose proof (field_of_inv _ _ _ _ _ _ S) as Q.
  assert (O : opt_arg seen n bool_arg = Some (get (marked l f0)) /\ no_colon n = true).
  { destruct (marked_same l f0) as (E1 & E2 & E3 & E4 & E5 & E6 & E7 & E8 & E9 & _).
    simpl in I. repeat (destruct I as [I|I]; [inversion I; subst; split; [|reflexivity];
      rewrite ?E1, ?E2, ?E3, ?E4, ?E5, ?E6, ?E7, ?E8, ?E9; tauto|]). destruct I. }
  destruct O as [O N]. split.
  - apply (keyword_read cs field_names items seen n (get (marked l f0)) AS C N O).
  - intros c r. apply (keyword_only cs field_names items seen n (get (marked l f0)) c r AS C eq_refl N O).
Qed.
(** ** Flags *)
Lemma skip_read ft i v t a l f : read_field ft i v t a l = Some f ->
  exists cs, gathered l cs /\
    (f_skip f = true <-> exists c, In c cs /\ argument_for "skip" c []) /\
    (forall c r, In c cs -> argument_for "skip" c r -> r = []).
Proof.
  intros H. destruct (read_field_inv _ _ _ _ _ _ _ H) as (cs & items & seen & f0 & A & AS & C & S & -> & _ & _).
  exists cs. split; [exact A|]. destruct (field_of_inv _ _ _ _ _ _ S) as (Q & _).
  assert (E : f_skip (marked l f0) = f_skip f0).
  { unfold marked, mark_implicitly. destruct (existsb is_word l), (f_lazy f0); reflexivity. }
  rewrite E. unfold flag in Q.
  assert (N : forall c r, In c cs -> argument_for "skip" c r -> r = [] /\ f_skip f0 = true).
  { intros c r J F. destruct (accepted_named cs field_names items seen c "skip" r AS C eq_refl J F) as (m & P & M & _ & X).
    rewrite X in Q. destruct m as [p|p d g|p v']; try discriminate. inversion Q. split; [|reflexivity].
    destruct (parse_nested_inv _ _ P) as [T K]. pose proof (meta_argument _ "skip" K M eq_refl) as A'. rewrite <- T in A'.
    destruct (argument_for_fun _ _ _ _ _ F A') as [_ R]. exact R. }
  split.
  - split.
    + intros T. destruct (assoc "skip" seen) as [m|] eqn:X; [|inversion Q; congruence].
      apply (given_assoc _ _ _ _ _ _ AS C) in X. destruct X as (c & J & P & M).
      destruct m as [p|p d g|p v']; try discriminate. exists c. split; [exact J|].
      destruct (parse_nested_inv _ _ P) as [T' K]. rewrite T'. exact (meta_argument (SPath p) "skip" K M eq_refl).
    + intros (c & J & F). exact (proj2 (N c [] J F)).
  - intros c r J F. exact (proj1 (N c r J F)).
Qed.
