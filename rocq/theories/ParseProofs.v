(** What is written with ParseSpec.v is read back, and what the reader accepts. *)
From Coq Require Import List Bool String Ascii Permutation Lia.
From Verif Require Import ArgsModel TokenSpec TokenModel ParseModel ParseSpec ParseFacts.
Import ListNotations.
Open Scope string_scope.
Open Scope list_scope.

(** ** Literals and names *)
Lemma chop_quote s : chop (s ++ """") = s.
Proof.
  induction s as [|c s IH]; [reflexivity|].
  change (String c s ++ """")%string with (String c (s ++ """")).
  simpl. destruct (s ++ """")%string eqn:E.
  - destruct s; discriminate.
  - rewrite IH. reflexivity.
Qed.
Lemma lit_str_quoted s : lit_str (quoted s) = Some s.
Proof. unfold quoted, lit_str. simpl. f_equal. apply chop_quote. Qed.
Lemma reserved_keywords : reserved = keywords.
Proof. reflexivity. Qed.
Lemma mem_false s l : mem s l = false <-> ~ In s l.
Proof. rewrite <- mem_In. destruct (mem s l); split; congruence. Qed.
Lemma name_ok_segment s : name_ok s <-> segment_ok s = true.
Proof.
  unfold name_ok, segment_ok. rewrite reserved_keywords, negb_true_iff, mem_false. reflexivity.
Qed.
Lemma ident_name_ok s : ident_name s <-> ident_ok s = true.
Proof.
  unfold ident_name, ident_ok. rewrite andb_true_iff, <- name_ok_segment, negb_true_iff, mem_false. reflexivity.
Qed.
Lemma segment_not_bool s : segment_ok s = true -> lit_bool s = None.
Proof.
  intros H. unfold lit_bool. destruct (String.eqb_spec s "true"); [subst; discriminate|].
  destruct (String.eqb_spec s "false"); [subst; discriminate|]. reflexivity.
Qed.
Lemma nested_word n : segment_ok n = true -> parse_nested [TIdent n] = Some (NMeta (SPath (mk_path false [n]))).
Proof.
  intros H. unfold parse_nested, parse_lit. rewrite (segment_not_bool _ H).
  unfold parse_meta. simpl. rewrite H. reflexivity.
Qed.
Lemma nested_list n ts : segment_ok n = true ->
  parse_nested [TIdent n; TGroup DParen ts] = Some (NMeta (SList (mk_path false [n]) DParen ts)).
Proof. intros H. rewrite parse_nested_list by discriminate. rewrite H. reflexivity. Qed.
Lemma nested_value n t : segment_ok n = true ->
  parse_nested [TIdent n; TPunct "="; t] = Some (NMeta (SValue (mk_path false [n]) [t])).
Proof. intros H. unfold parse_nested. simpl. unfold parse_meta. simpl. rewrite H. destruct t; reflexivity. Qed.
Lemma word_name n : meta_name (SPath (mk_path false [n])) = n.
Proof. reflexivity. Qed.
Lemma one_word n : one_argument [TIdent n].
Proof. split; [discriminate|]. intros [H|[]]. discriminate. Qed.
Lemma one_list n d ts : one_argument [TIdent n; TGroup d ts].
Proof. split; [discriminate|]. intros [H|[H|[]]]; discriminate. Qed.
Lemma one_lit s : one_argument [TLit s].
Proof. split; [discriminate|]. intros [H|[]]. discriminate. Qed.

(** ** Rows: one possible argument each *)
Definition row := (string * list (list tok) * option smeta)%type.
Definition r_name (r : row) : string := fst (fst r).
Definition r_chunks (r : row) : list (list tok) := snd (fst r).
Definition row_ok (r : row) : Prop :=
  match snd r with
  | None => r_chunks r = []
  | Some m => exists c, r_chunks r = [c] /\ one_argument c /\ parse_nested c = Some (NMeta m)
                        /\ meta_name m = r_name r
  end.
Fixpoint lookup (n : string) (rs : list row) : option smeta :=
  match rs with
  | [] => None
  | r :: rest => if String.eqb n (r_name r) then snd r else lookup n rest
  end.
Definition row_metas (rs : list row) : list smeta :=
  flat_map (fun r => match snd r with Some m => [m] | None => [] end) rs.
Lemma row_metas_names rs n : Forall row_ok rs -> In n (map meta_name (row_metas rs)) -> In n (map r_name rs).
Proof.
  induction 1 as [|[[k cs] mo] rs O F IH]; simpl; [auto|]. rewrite map_app, in_app_iff.
  intros [I|I]; [|right; auto]. left. destruct mo as [m|]; [|destruct I].
  destruct O as (c & _ & _ & _ & E). destruct I as [<-|[]]. symmetry. exact E.
Qed.
Lemma row_metas_NoDup rs : Forall row_ok rs -> NoDup (map r_name rs) -> NoDup (map meta_name (row_metas rs)).
Proof.
  induction 1 as [|[[k cs] mo] rs O F IH]; simpl; [auto|]. intros D. inversion D; subst.
  destruct mo as [m|]; [|auto]. simpl. constructor; [|auto].
  destruct O as (c & _ & _ & _ & E). unfold r_name in E. simpl in E. rewrite E. intros I.
  apply H1. apply row_metas_names; assumption.
Qed.
Lemma lookup_In n rs m : Forall row_ok rs -> NoDup (map r_name rs) ->
  lookup n rs = Some m <-> In m (row_metas rs) /\ meta_name m = n.
Proof.
  induction 1 as [|[[k cs] mo] rs O F IH]; simpl.
  - intros _. split; [discriminate|]. intros [[] _].
  - intros D. inversion D; subst. unfold r_name at 1. simpl. rewrite in_app_iff.
    destruct (String.eqb_spec n k) as [->|N].
    + split.
      * intros ->. destruct O as (c & _ & _ & _ & E). split; [left; left; reflexivity|exact E].
      * intros [[I|I] E].
        -- destruct mo; [|destruct I]. destruct I as [->|[]]. reflexivity.
        -- exfalso. apply H1. unfold r_name at 1. simpl. apply row_metas_names; [exact F|].
           apply in_map_iff. exists m. split; assumption.
    + rewrite (IH H2). split; [intros [I E]; split; [right; exact I|exact E]|].
      intros [[I|I] E]; [|split; assumption].
      exfalso. destruct mo as [m'|]; [|destruct I]. destruct I as [->|[]].
      destruct O as (c & _ & _ & _ & E'). unfold r_name in E'. simpl in E'. congruence.
Qed.
Lemma lits_metas (ms : list smeta) : literals (map NMeta ms) = [] /\ non_literals (map NMeta ms) = map NMeta ms.
Proof. induction ms as [|m ms [H1 H2]]; [split; reflexivity|]. simpl. rewrite H1, H2. split; reflexivity. Qed.

Lemma rows_read rs : Forall row_ok rs ->
  all_some parse_nested (flat_map r_chunks rs) = Some (map NMeta (row_metas rs)) /\
  Forall one_argument (flat_map r_chunks rs).
Proof.
  induction 1 as [|[[k cs] mo] rs O F [IH1 IH2]]; [split; [reflexivity|constructor]|].
  simpl. unfold r_chunks at 1 3. simpl. destruct mo as [m|].
  - destruct O as (c & E & O & P & _). unfold r_chunks in E. simpl in E. subst cs. split.
    + simpl app. rewrite all_some_cons, P. unfold row_metas in IH1. rewrite IH1. reflexivity.
    + constructor; assumption.
  - unfold row_ok, r_chunks in O. simpl in O. subst cs. split; assumption.
Qed.
Lemma rows_collect known rs : Forall row_ok rs -> NoDup (map r_name rs) ->
  (forall n, In n (map r_name rs) -> In n known) ->
  exists seen, collect known [] (map NMeta (row_metas rs)) = Some seen /\
    forall n, assoc n seen = lookup n rs.
Proof.
  intros F D K. exists (rev (map entry (row_metas rs))). split.
  - apply collect_nil. exists (row_metas rs). repeat split.
    + apply Forall_forall. intros m I. apply K. apply row_metas_names; [exact F|].
      apply in_map. exact I.
    + apply row_metas_NoDup; assumption.
  - intros n. pose proof (row_metas_NoDup _ F D) as D'.
    destruct (lookup n rs) as [m|] eqn:L.
    + apply assoc_entries; [exact D'|]. apply lookup_In in L; assumption.
    + destruct (assoc n (rev (map entry (row_metas rs)))) as [m|] eqn:A; [|reflexivity].
      apply assoc_entries in A; [|exact D']. apply lookup_In in A; [|assumption|assumption]. congruence.
Qed.
(** A list with literals in front. *)
Lemma nest_rows {A} known rs lits (k : list (string * smeta) -> option A) st a a' :
  Forall row_ok rs -> NoDup (map r_name rs) -> (forall n, In n (map r_name rs) -> In n known) ->
  (forall seen, (forall n, assoc n seen = lookup n rs) -> k seen = Some a) ->
  match lits with [] => Some a | _ => st a lits end = Some a' ->
  extract_literals (fun l => get? seen := collect known [] l in k seen) st
    (joined (map (fun s => [TLit s]) lits ++ flat_map r_chunks rs)) = Some a'.
Proof.
  intros F D K H1 H2. destruct (rows_read _ F) as [R1 R2].
  assert (AS : all_some parse_nested (map (fun s => [TLit s]) lits) = Some (map NLit lits)).
  { clear. induction lits as [|s l IH]; [reflexivity|]. simpl. rewrite IH. reflexivity. }
  assert (AR : arguments (map (fun s => [TLit s]) lits ++ flat_map r_chunks rs)
                 (joined (map (fun s => [TLit s]) lits ++ flat_map r_chunks rs))).
  { apply arguments_joined. apply Forall_app. split; [|exact R2]. apply Forall_map. apply Forall_forall.
    intros s _. apply one_lit. }
  unfold extract_literals. rewrite (arguments_list _ _ AR), (all_some_app _ _ _ _ _ AS R1). simpl obind.
  destruct (lits_metas (row_metas rs)) as [L1 L2].
  assert (E1 : literals (map NLit lits ++ map NMeta (row_metas rs)) = lits).
  { unfold literals in *. rewrite flat_map_app, L1, app_nil_r. clear. induction lits as [|s l IH]; [reflexivity|].
    simpl. rewrite IH. reflexivity. }
  assert (E2 : non_literals (map NLit lits ++ map NMeta (row_metas rs)) = map NMeta (row_metas rs)).
  { unfold non_literals in *. rewrite filter_app, L2. clear. induction lits as [|s l IH]; [reflexivity|]. exact IH. }
  rewrite E1, E2. destruct (rows_collect known rs F D K) as (seen & C & L). rewrite C. simpl.
  rewrite (H1 _ L). simpl. destruct lits; exact H2.
Qed.

Definition opt_val {A} (mo : option smeta) (f : smeta -> option A) : option (option A) :=
  match mo with None => Some None | Some m => option_map Some (f m) end.
Definition flag_val (mo : option smeta) : option bool :=
  match mo with None => Some false | Some (SPath _) => Some true | Some _ => None end.
(** [reads w f P]: what [w] writes for a value with [P] is read back by [f]. *)
Definition reads {A} (w : string -> A -> list tok) (f : smeta -> option A) (P : A -> Prop) : Prop :=
  forall n a, segment_ok n = true -> P a ->
    exists m, parse_nested (w n a) = Some (NMeta m) /\ meta_name m = n /\ f m = Some a /\
      one_argument (w n a).
Lemma opt_row {A} w f P n (o : option A) : reads w f P -> segment_ok n = true -> opt_all P o ->
  exists mo, row_ok (n, w_opt w n o, mo) /\ opt_val mo f = Some o.
Proof.
  intros R S O. destruct o as [a|].
  - destruct (R n a S O) as (m & H1 & H2 & H3 & H4). exists (Some m). split.
    + exists (w n a). split; [reflexivity|]. split; [exact H4|]. split; [exact H1|exact H2].
    + simpl. rewrite H3. reflexivity.
  - exists None. split; reflexivity.
Qed.
Lemma flag_row n b : segment_ok n = true ->
  exists mo, row_ok (n, w_flag n b, mo) /\ flag_val mo = Some b.
Proof.
  intros S. destruct b.
  - exists (Some (SPath (mk_path false [n]))). split; [|reflexivity].
    exists [TIdent n]. split; [reflexivity|]. split; [apply one_word|]. split; [apply nested_word; exact S|].
    apply word_name.
  - exists None. split; reflexivity.
Qed.

(** Rows in a goal: the reader's questions are answered by [lookup]. *)
Ltac not_in := simpl; intuition discriminate.
Ltac nodup := repeat (constructor; [not_in|]); constructor.
Ltac known := let n := fresh in let H := fresh in intros n H; simpl in H |- *; tauto.
Ltac answer L :=
  match goal with
  | |- context [opt_arg ?s ?n ?f] => change (opt_arg s n f) with (opt_val (assoc n s) f); rewrite (L n)
  | |- context [flag ?s ?n] => change (flag s n) with (flag_val (assoc n s)); rewrite (L n)
  end;
  simpl lookup.
Lemma lists_read {A} w f (P : A -> Prop) (cs : A -> list (list tok)) kw fl fv st :
  (forall n a, w n a = w_list n (cs a)) ->
  (forall m, f m = nesting kw fl fv st m) ->
  (forall a, P a -> extract_literals fl st (joined (cs a)) = Some a) ->
  reads w f P.
Proof.
  intros W E H n a S Pa. rewrite W. eexists. unfold w_list. split; [apply nested_list; exact S|].
  split; [reflexivity|]. split; [rewrite E; simpl; apply H; exact Pa|]. apply one_list.
Qed.

(** ** The argument types *)
Lemma reads_bool : reads w_bool bool_arg (fun _ => True).
Proof.
  intros n b S _. unfold w_bool. destruct b.
  - eexists. split; [apply nested_word; exact S|]. split; [reflexivity|]. split; [reflexivity|apply one_word].
  - eexists. split; [apply nested_list; exact S|]. split; [reflexivity|]. split; [reflexivity|apply one_list].
Qed.
Lemma reads_str : reads w_str string_arg (fun _ => True).
Proof.
  intros n [o v] S _. unfold w_str, w_list. eexists. split; [apply nested_list; exact S|].
  split; [reflexivity|]. split; [|apply one_list]. unfold string_arg, nesting. simpl sa_off. simpl sa_value.
  destruct o, v as [v|]; unfold extract_literals; simpl; try reflexivity;
    change (String """" (v ++ """")) with (quoted v); rewrite chop_quote; reflexivity.
Qed.
Lemma reads_pub : reads w_pub pub_arg pub_ok.
Proof.
  intros n p S O. unfold w_pub, w_list. destruct p as [| | |p|].
  - exfalso. apply O. reflexivity.
  - eexists. split; [apply nested_list; exact S|]. split; [reflexivity|]. split; [reflexivity|apply one_list].
  - eexists. split; [apply nested_list; exact S|]. split; [reflexivity|]. split; [reflexivity|apply one_list].
  - eexists. split; [apply nested_list; exact S|]. split; [reflexivity|]. split; [|apply one_list].
    unfold pub_arg, nesting, extract_literals. simpl.
    unfold pub_from_list, path_from_meta. simpl. rewrite chop_quote. reflexivity.
  - eexists. split; [apply nested_word; exact S|]. split; [reflexivity|]. split; [reflexivity|apply one_word].
Qed.
Lemma chunks_words l : chunks (joined (map (fun a => [TIdent a]) l)) =
  match l with [] => [[]] | _ => map (fun a => [TIdent a]) l end.
Proof.
  unfold chunks.
  assert (H : forall l acc, l <> [] ->
     fold_left chunk_step (joined (map (fun a => [TIdent a]) l)) (acc, [])
     = (acc ++ removelast (map (fun a => [TIdent a]) l), last (map (fun a => [TIdent a]) l) [])).
  { clear. induction l as [|a l IH]; intros acc N; [contradiction|]. destruct l as [|b l].
    - simpl. rewrite app_nil_r. reflexivity.
    - change (joined (map (fun a => [TIdent a]) (a :: b :: l)))
        with ([TIdent a] ++ comma :: joined (map (fun a => [TIdent a]) (b :: l))).
      change (fold_left chunk_step (joined (map (fun a0 => [TIdent a0]) (b :: l))) (acc ++ [[TIdent a]], [])
        = (acc ++ removelast (map (fun a0 => [TIdent a0]) (a :: b :: l)),
           last (map (fun a0 => [TIdent a0]) (a :: b :: l)) [])).
      rewrite IH by discriminate. rewrite <- app_assoc. reflexivity. }
  destruct l as [|a l]; [reflexivity|]. rewrite H by discriminate. cbn [fst snd app].
  rewrite <- app_removelast_last by discriminate. reflexivity.
Qed.
Lemma reads_words : reads w_words attributes_arg (fun _ => True).
Proof.
  intros n l S _. unfold w_words, w_list. eexists. split; [apply nested_list; exact S|].
  split; [reflexivity|]. split; [|apply one_list]. unfold attributes_arg, from_meta.
  rewrite chunks_words.
  assert (D : drop_empty_last (match l with [] => [[]] | _ => map (fun a => [TIdent a]) l end)
              = map (fun a => [TIdent a]) l).
  { destruct l as [|a l]; [reflexivity|]. unfold drop_empty_last.
    rewrite <- map_rev. destruct (rev (a :: l)); reflexivity. }
  rewrite D.
  assert (Pa : forallb parses (map (fun a => [TIdent a]) l) = true).
  { clear. induction l; [reflexivity|]. exact IHl. }
  rewrite Pa. f_equal. rewrite map_map. clear. induction l as [|a l IH]; [reflexivity|].
  simpl. rewrite IH. f_equal. unfold show. simpl. clear. induction a as [|c a IH]; [reflexivity|].
  simpl. rewrite IH. reflexivity.
Qed.

(** *** Helpers *)
Definition lits (l : list string) : list (list tok) := map (fun s => [TLit s]) l.
(** The name: a literal, or an argument of its own. *)
Definition named_by (f : smeta -> option strarg) (ls : list string) (mo : option smeta) (o : option strarg) : Prop :=
  (ls = [] /\ opt_val mo f = Some o) \/
  (exists v, ls = [quoted v] /\ mo = None /\ o = Some (mk_strarg false (Some v))).
Lemma name_row_gen n (o : option strarg) (wn : list (list tok)) : segment_ok n = true ->
  wn = match o with
       | None => []
       | Some a => if plain_name a then w_lits (sa_value a) else [w_str n a]
       end ->
  exists ls cs mo, wn = lits ls ++ cs /\ row_ok (n, cs, mo) /\ named_by string_arg ls mo o.
Proof.
  intros S ->. destruct o as [a|].
  - destruct (plain_name a) eqn:P.
    + destruct a as [off v]. unfold plain_name in P. simpl in P. apply andb_true_iff in P.
      destruct P as [P1 P2]. apply negb_true_iff in P1. subst off. destruct v as [v|]; [|discriminate].
      exists [quoted v], [], None. split; [reflexivity|]. split; [reflexivity|]. right. exists v. auto.
    + destruct (opt_row w_str string_arg _ n (Some a) reads_str S I) as (mo & H1 & H2).
      exists [], [w_str n a], mo. split; [reflexivity|]. split; [exact H1|]. left. auto.
  - exists [], [], None. split; [reflexivity|]. split; [reflexivity|]. left. auto.
Qed.
Lemma literal_name_quoted v : literal_name [quoted v] = Some (mk_strarg false (Some v)).
Proof. unfold literal_name. rewrite lit_str_quoted. reflexivity. Qed.

(** The rows of a helper. *)
Definition no_name (h : helper) : helper :=
  mk_helper (h_off h) None (h_attributes_fn h) (h_public h) (h_private h).
Definition base_or_named (ls : list string) (h : helper) : helper := match ls with [] => h | _ => no_name h end.
Lemma base_rows h : base_ok h ->
  exists ls rs, w_base h = lits ls ++ flat_map r_chunks rs /\ Forall row_ok rs /\
    map r_name rs = ["name"; "off"; "attributes_fn"; "public"; "private"] /\
    (forall seen, (forall n, In n ["name"; "off"; "attributes_fn"; "public"; "private"] ->
                   assoc n seen = lookup n rs) ->
       helper_of seen = Some (base_or_named ls h)) /\
    (ls = [] \/ exists v, ls = [quoted v] /\ h_name h = Some (mk_strarg false (Some v))).
Proof.
  intros [O1 O2]. unfold w_base.
  destruct (name_row_gen "name" (h_name h) (w_name (h_name h)) eq_refl eq_refl) as (ls & cs & m1 & E & R1 & N).
  destruct (flag_row "off" (h_off h) eq_refl) as (m2 & R2 & V2).
  destruct (opt_row _ _ _ "attributes_fn" (h_attributes_fn h) reads_words eq_refl
             ltac:(destruct (h_attributes_fn h); exact I)) as (m3 & R3 & V3).
  destruct (opt_row _ _ _ "public" (h_public h) reads_pub eq_refl O1) as (m4 & R4 & V4).
  destruct (opt_row _ _ _ "private" (h_private h) reads_bool eq_refl
             ltac:(destruct (h_private h); exact I)) as (m5 & R5 & V5).
  exists ls. eexists [("name", _, m1); ("off", _, m2); ("attributes_fn", _, m3); ("public", _, m4); ("private", _, m5)].
  split; [|split; [repeat constructor; eassumption|]].
  - rewrite E. simpl flat_map. unfold r_chunks. simpl fst. simpl snd. rewrite app_nil_r, <- !app_assoc. reflexivity.
  - split; [reflexivity|]. split.
    + intros seen L. unfold helper_of.
      change (opt_arg seen "name" string_arg) with (opt_val (assoc "name" seen) string_arg).
      change (flag seen "off") with (flag_val (assoc "off" seen)).
      change (opt_arg seen "attributes_fn" attributes_arg) with (opt_val (assoc "attributes_fn" seen) attributes_arg).
      change (opt_arg seen "public" pub_arg) with (opt_val (assoc "public" seen) pub_arg).
      change (opt_arg seen "private" bool_arg) with (opt_val (assoc "private" seen) bool_arg).
      rewrite !L by (simpl; tauto). simpl lookup.
      assert (V1 : opt_val m1 string_arg = Some (match ls with [] => h_name h | _ => None end)).
      { destruct N as [[-> V]|(v & -> & -> & _)]; [exact V|reflexivity]. }
      rewrite V1, V2, V3, V4, V5. simpl obind.
      assert (X : helper_exclusives_ok
        (mk_helper (h_off h) (match ls with [] => h_name h | _ => None end) (h_attributes_fn h) (h_public h)
           (h_private h)) = true).
      { unfold helper_exclusives_ok. simpl. destruct O2 as [-> | ->]; [reflexivity|].
        simpl. rewrite andb_false_r. reflexivity. }
      rewrite X. simpl. destruct ls; destruct h; reflexivity.
    + destruct N as [[-> V]|(v & -> & -> & V)]; [left; reflexivity|right; exists v; auto].
Qed.
Lemma with_name_back v h : h_name h = Some (mk_strarg false (Some v)) ->
  with_name (no_name h) (mk_strarg false (Some v)) = h.
Proof. destruct h; simpl. intros ->. reflexivity. Qed.

Lemma lookup_app n rs rs' : lookup n (rs ++ rs') = if mem n (map r_name rs) then lookup n rs else lookup n rs'.
Proof.
  induction rs as [|r rs IH]; [reflexivity|]. simpl. rewrite IH.
  destruct (String.eqb n (r_name r)); reflexivity.
Qed.
(** A helper with more arguments of its own. *)
Lemma base_read {A} known (rs' : list row) (k : list (string * smeta) -> option A) st h a0 a cs :
  base_ok h -> Forall row_ok rs' -> cs = w_base h ++ flat_map r_chunks rs' ->
  NoDup (helper_names ++ map r_name rs') ->
  (forall n, In n (helper_names ++ map r_name rs') -> In n known) ->
  (forall h0 seen, helper_of seen = Some h0 ->
     (forall n, mem n helper_names = false -> assoc n seen = lookup n rs') -> k seen = Some (a0 h0)) ->
  a0 h = a ->
  (forall v, h_name h = Some (mk_strarg false (Some v)) -> st (a0 (no_name h)) [quoted v] = Some a) ->
  extract_literals (fun l => get? seen := collect known [] l in k seen) st (joined cs) = Some a.
Proof.
  intros B F E D K H1 H2 H3. destruct (base_rows h B) as (ls & rs & E1 & F1 & N1 & V1 & L1).
  subst cs. rewrite E1, <- app_assoc, <- flat_map_app.
  apply (nest_rows known (rs ++ rs') ls k st (a0 (base_or_named ls h)) a).
  - apply Forall_app; split; assumption.
  - rewrite map_app, N1. exact D.
  - rewrite map_app, N1. exact K.
  - intros seen L. apply H1.
    + apply V1. intros n I. rewrite L, lookup_app, N1. apply mem_In in I. rewrite I. reflexivity.
    + intros n M. rewrite L, lookup_app, N1. change ["name"; "off"; "attributes_fn"; "public"; "private"] with helper_names.
      rewrite M. reflexivity.
  - destruct L1 as [-> | (v & -> & N)]; simpl; [rewrite H2; reflexivity|]. apply H3. exact N.
Qed.
Ltac ask L :=
  repeat match goal with
  | |- context [opt_arg ?s ?n ?f] =>
      change (opt_arg s n f) with (opt_val (assoc n s) f); rewrite (L n) by reflexivity
  | |- context [flag ?s ?n] => change (flag s n) with (flag_val (assoc n s)); rewrite (L n) by reflexivity
  end; simpl lookup.

Lemma reads_helper : reads w_helper helper_arg base_ok.
Proof.
  eapply lists_read with (cs := w_base); [reflexivity|reflexivity|]. intros h B.
  eapply (base_read helper_names [] helper_of _ h (fun h => h)); try reflexivity; auto.
  - simpl. rewrite app_nil_r. reflexivity.
  - nodup.
  - intros v N. rewrite literal_name_quoted. simpl. rewrite with_name_back by exact N. reflexivity.
Qed.
Lemma reads_accessor : reads w_accessor accessor_arg accessor_ok.
Proof.
  eapply lists_read with
    (cs := fun a => w_base (a_base a) ++ w_flag "clone" (a_clone a) ++ w_flag "copy" (a_copy a)
                    ++ w_flag "as_ref" (a_as_ref a)); [reflexivity|reflexivity|].
  intros [h c p r] (B & O1 & O2 & O3). simpl in *.
  destruct (flag_row "clone" c eq_refl) as (m1 & R1 & V1).
  destruct (flag_row "copy" p eq_refl) as (m2 & R2 & V2).
  destruct (flag_row "as_ref" r eq_refl) as (m3 & R3 & V3).
  eapply (base_read _ [("clone", _, m1); ("copy", _, m2); ("as_ref", _, m3)] _ _ h (fun h => mk_accessor h c p r)).
  - exact B.
  - repeat constructor; eassumption.
  - simpl. unfold r_chunks. simpl. rewrite app_nil_r. reflexivity.
  - nodup.
  - known.
  - intros h0 seen H L. rewrite H. simpl obind. ask L. rewrite V1, V2, V3. simpl.
    assert (X : accessor_exclusives_ok (mk_accessor h0 c p r) = true).
    { unfold accessor_exclusives_ok. simpl.
      assert (Y : helper_exclusives_ok h0 = true).
      { unfold helper_of in H. unfold obind in H.
        repeat match type of H with match ?e with _ => _ end = _ => destruct e eqn:?; [|discriminate] end.
        inversion H; subst. unfold ensure in *.
        destruct (helper_exclusives_ok _) eqn:Z in *; [reflexivity|discriminate]. }
      rewrite Y. destruct c, p, r; try reflexivity; exfalso; auto. }
    rewrite X. reflexivity.
  - reflexivity.
  - intros v N. rewrite literal_name_quoted. simpl. rewrite with_name_back by exact N. reflexivity.
Qed.
Lemma reads_into : reads w_into bool_from_meta (fun _ => True).
Proof.
  intros n b S _. destruct b; eexists.
  - split; [apply nested_word; exact S|]. split; [reflexivity|]. split; [reflexivity|apply one_word].
  - split; [apply nested_value; exact S|]. split; [reflexivity|]. split; [reflexivity|].
    split; [discriminate|]. intros [H|[H|[H|[]]]]; discriminate.
Qed.
Lemma opt_true {A} (o : option A) : opt_all (fun _ => True) o.
Proof. destruct o; exact I. Qed.
Lemma reads_setter : reads w_setter setter_arg (fun a => base_ok (st_base a)).
Proof.
  eapply lists_read with (cs := fun a => w_base (st_base a) ++ w_opt w_into "into" (st_into a));
    [reflexivity|reflexivity|].
  intros [h i] B. simpl in *.
  destruct (opt_row _ _ _ "into" i reads_into eq_refl (opt_true i)) as (m1 & R1 & V1).
  eapply (base_read _ [("into", _, m1)] _ _ h (fun h => mk_setter h i)).
  - exact B.
  - repeat constructor; eassumption.
  - simpl. unfold r_chunks. simpl. rewrite app_nil_r. reflexivity.
  - nodup.
  - known.
  - intros h0 seen H L. rewrite H. simpl obind. ask L. rewrite V1. reflexivity.
  - reflexivity.
  - intros v N. rewrite literal_name_quoted. simpl. rewrite with_name_back by exact N. reflexivity.
Qed.
Lemma show_ident s : show [TIdent s] = s.
Proof.
  unfold show. simpl. induction s as [|c s IH]; [reflexivity|]. simpl in *. rewrite IH. reflexivity.
Qed.
Lemma reads_post : reads w_post ident_arg (opt_all ident_name).
Proof.
  intros n o S O. destruct o as [i|]; eexists.
  - split; [apply nested_list; exact S|]. split; [reflexivity|]. split; [|apply one_list].
    simpl. apply ident_name_ok in O. rewrite O. reflexivity.
  - split; [apply nested_word; exact S|]. split; [reflexivity|]. split; [reflexivity|apply one_word].
Qed.
Lemma whole_path_word s : name_ok s -> whole_path [TIdent s] = Some s.
Proof.
  intros N. apply name_ok_segment in N. unfold whole_path. simpl. rewrite N. simpl.
  unfold show_path, path_toks. simpl. rewrite show_ident. reflexivity.
Qed.
Lemma words_arguments l : arguments (map (fun a => [TIdent a]) l) (joined (map (fun a => [TIdent a]) l)).
Proof. apply arguments_joined. apply Forall_map. apply Forall_forall. intros; apply one_word. Qed.
Lemma reads_error : reads w_words error_arg error_ok.
Proof.
  intros n l S [L F]. eexists. split; [apply nested_list; exact S|]. split; [reflexivity|].
  split; [|apply one_list]. simpl. rewrite (arguments_terminated _ _ (words_arguments l)).
  assert (E : all_some whole_path (map (fun a => [TIdent a]) l) = Some l).
  { clear L. induction F as [|a l N F IH]; [reflexivity|]. simpl map. rewrite all_some_cons, whole_path_word by exact N.
    rewrite IH. reflexivity. }
  rewrite E. simpl. destruct L as [-> | ->]; reflexivity.
Qed.
Lemma reads_builder_gen b : reads w_builder (builder_arg b) (fun x => builder_ok x /\ (b = true \/ field_level x)).
Proof.
  eapply lists_read with
    (cs := fun b => w_base (b_base b)
            ++ w_opt w_words "attributes" (b_attributes b)
            ++ w_opt w_words "attributes_impl" (b_attributes_impl b)
            ++ w_opt w_bool "into" (b_into b) ++ w_opt w_bool "required" (b_required b)
            ++ w_opt w_bool "opt_in" (b_opt_in b)
            ++ w_opt w_post "post_build" (b_post_build b)
            ++ w_opt w_words "error" (b_error b)); [reflexivity|reflexivity|].
  intros [h a ai i r o p e] ((B & O1 & O2) & LV). simpl in *.
  destruct (opt_row _ _ _ "attributes" a reads_words eq_refl (opt_true _)) as (m1 & R1 & V1).
  destruct (opt_row _ _ _ "attributes_impl" ai reads_words eq_refl (opt_true _)) as (m2 & R2 & V2).
  destruct (opt_row _ _ _ "into" i reads_bool eq_refl (opt_true _)) as (m3 & R3 & V3).
  destruct (opt_row _ _ _ "required" r reads_bool eq_refl (opt_true _)) as (m4 & R4 & V4).
  destruct (opt_row _ _ _ "opt_in" o reads_bool eq_refl (opt_true _)) as (m5 & R5 & V5).
  destruct (opt_row _ _ _ "post_build" p reads_post eq_refl O1) as (m6 & R6 & V6).
  destruct (opt_row _ _ _ "error" e reads_error eq_refl O2) as (m7 & R7 & V7).
  eapply (base_read _ [("attributes", _, m1); ("attributes_impl", _, m2); ("into", _, m3); ("required", _, m4);
                       ("opt_in", _, m5); ("post_build", _, m6); ("error", _, m7)]
            _ _ h (fun h => mk_builder h a ai i r o p e)).
  - exact B.
  - repeat constructor; eassumption.
  - simpl. unfold r_chunks. simpl. rewrite app_nil_r. reflexivity.
  - nodup.
  - known.
  - intros h0 seen H L. rewrite H. simpl obind. ask L. rewrite V1, V2, V3, V4, V5, V6, V7. simpl.
    assert (X : b || field_builder_ok (mk_builder h0 a ai i r o p e) = true).
    { destruct LV as [-> | (X1 & X2 & X3)]; [reflexivity|]. simpl in X1, X2, X3. subst.
      apply orb_true_iff. right. unfold field_builder_ok. simpl.
      assert (Y : helper_exclusives_ok h0 = true).
      { unfold helper_of in H. unfold obind in H.
        repeat match type of H with match ?e with _ => _ end = _ => destruct e eqn:?; [|discriminate] end.
        inversion H; subst. unfold ensure in *.
        destruct (helper_exclusives_ok _) eqn:Z in *; [reflexivity|discriminate]. }
      rewrite Y. reflexivity. }
    rewrite X. reflexivity.
  - reflexivity.
  - intros v N. rewrite literal_name_quoted. simpl. rewrite with_name_back by exact N. reflexivity.
Qed.
Lemma reads_path : reads w_one path_arg name_ok.
Proof.
  intros n s S N. eexists. split; [apply nested_list; exact S|]. split; [reflexivity|].
  split; [|apply one_list]. simpl. apply whole_path_word. exact N.
Qed.
Lemma reads_fallible : reads w_fallible fallible_arg fallible_ok.
Proof.
  eapply lists_read with (cs := fun f => w_flag "off" (fl_off f) ++ w_opt w_one "error" (fl_error f));
    [reflexivity|reflexivity|].
  intros [o e] O. simpl in *.
  destruct (flag_row "off" o eq_refl) as (m1 & R1 & V1).
  destruct (opt_row _ _ _ "error" e reads_path eq_refl O) as (m2 & R2 & V2).
  pose proof (nest_rows ["off"; "error"] [("off", w_flag "off" o, m1); ("error", w_opt w_one "error" e, m2)] []
    (fun seen => get? off := flag seen "off" in
                 get? e := opt_arg seen "error" path_arg in Some (mk_fallible off e))
    (fun _ _ => None) (mk_fallible o e) (mk_fallible o e)) as Q.
  simpl flat_map in Q. unfold r_chunks in Q. simpl in Q. rewrite app_nil_r in Q. apply Q; clear Q; auto.
  - nodup.
  - intros seen L. change (flag seen "off") with (flag_val (assoc "off" seen)).
    change (opt_arg seen "error" path_arg) with (opt_val (assoc "error" seen) path_arg).
    rewrite !L. simpl. rewrite V1, V2. reflexivity.
Qed.
Lemma reads_mode : reads w_mode mode_arg (fun _ => True).
Proof.
  intros n m S _. eexists. split; [apply nested_list; exact S|]. split; [reflexivity|].
  split; [|apply one_list]. destruct m; reflexivity.
Qed.
Lemma reads_default : reads w_default default_arg default_ok.
Proof.
  intros n [o v str] S O. unfold w_default, default_ok in *. simpl in *. destruct v as [v|].
  - unfold w_list. eexists. split; [apply nested_list; exact S|]. split; [reflexivity|]. split; [|apply one_list].
    simpl. unfold w_value.
    assert (N : exists i, parse_nested [if str then TLit v else TIdent v] = Some i /\ item_text i = (v, str)).
    { destruct str.
      - exists (NLit v). split; [reflexivity|]. destruct O as (s & ->). simpl. reflexivity.
      - apply name_ok_segment in O. eexists. split; [apply nested_word; exact O|]. simpl.
        unfold path_toks. simpl. rewrite show_ident. reflexivity. }
    destruct N as (i & P & T).
    assert (A : arguments (w_flag "off" o ++ [[if str then TLit v else TIdent v]])
                  (joined (w_flag "off" o ++ [[if str then TLit v else TIdent v]]))).
    { apply arguments_joined. apply Forall_app. split.
      - destruct o; constructor; [apply one_word|constructor].
      - constructor; [|constructor]. destruct str; [apply one_lit|apply one_word]. }
    rewrite (arguments_list _ _ A). destruct o.
    + simpl app. rewrite !all_some_cons, P, nested_word by reflexivity. simpl all_some.
      cbv beta iota. simpl obind. simpl map. rewrite T. reflexivity.
    + simpl app. rewrite all_some_cons, P. simpl all_some. cbv beta iota. simpl obind. simpl map. rewrite T. reflexivity.
  - destruct O as [-> ->]. eexists. split; [apply nested_word; exact S|]. split; [reflexivity|].
    split; [reflexivity|apply one_word].
Qed.
Lemma reads_paths : reads w_words path_list (Forall name_ok).
Proof.
  intros n l S F. eexists. split; [apply nested_list; exact S|]. split; [reflexivity|].
  split; [|apply one_list]. simpl. rewrite (arguments_list _ _ (words_arguments l)).
  assert (E : all_some parse_nested (map (fun a => [TIdent a]) l)
              = Some (map (fun a => NMeta (SPath (mk_path false [a]))) l)).
  { induction F as [|a l N F IH]; [reflexivity|]. simpl map. apply name_ok_segment in N.
    rewrite all_some_cons, nested_word by exact N. rewrite IH. reflexivity. }
  rewrite E. simpl. clear. induction l as [|a l IH]; [reflexivity|]. simpl map. rewrite all_some_cons, IH.
  unfold show_path, path_toks. simpl. rewrite show_ident. reflexivity.
Qed.
Lemma reads_serde : reads w_serde serde_arg serde_ok.
Proof.
  eapply lists_read with
    (cs := fun w => w_shadow (se_shadow_name w) ++ w_flag "off" (se_off w) ++ w_opt w_pub "public" (se_public w)
            ++ w_opt w_bool "private" (se_private w) ++ w_opt w_words "attributes" (se_attributes w)
            ++ w_opt w_bool "serialize" (se_serialize w) ++ w_opt w_bool "deserialize" (se_deserialize w)
            ++ w_opt w_words "forward_attrs" (se_forward_attrs w)
            ++ w_opt w_default "default" (se_default w)); [reflexivity|reflexivity|].
  intros [o pu pr a s d fw df sh] (O1 & O2 & O3 & O4). simpl in *.
  destruct (name_row_gen "shadow_name" sh (w_shadow sh) eq_refl eq_refl) as (ls & cs & m1 & E & R1 & N).
  destruct (flag_row "off" o eq_refl) as (m2 & R2 & V2).
  destruct (opt_row _ _ _ "public" pu reads_pub eq_refl O1) as (m3 & R3 & V3).
  destruct (opt_row _ _ _ "private" pr reads_bool eq_refl (opt_true _)) as (m4 & R4 & V4).
  destruct (opt_row _ _ _ "attributes" a reads_words eq_refl (opt_true _)) as (m5 & R5 & V5).
  destruct (opt_row _ _ _ "serialize" s reads_bool eq_refl (opt_true _)) as (m6 & R6 & V6).
  destruct (opt_row _ _ _ "deserialize" d reads_bool eq_refl (opt_true _)) as (m7 & R7 & V7).
  destruct (opt_row _ _ _ "forward_attrs" fw reads_paths eq_refl O3) as (m8 & R8 & V8).
  destruct (opt_row _ _ _ "default" df reads_default eq_refl O4) as (m9 & R9 & V9).
  set (rs := [("shadow_name", cs, m1); ("off", w_flag "off" o, m2); ("public", w_opt w_pub "public" pu, m3);
              ("private", w_opt w_bool "private" pr, m4); ("attributes", w_opt w_words "attributes" a, m5);
              ("serialize", w_opt w_bool "serialize" s, m6); ("deserialize", w_opt w_bool "deserialize" d, m7);
              ("forward_attrs", w_opt w_words "forward_attrs" fw, m8);
              ("default", w_opt w_default "default" df, m9)] : list row).
  assert (EC : w_shadow sh ++ w_flag "off" o ++ w_opt w_pub "public" pu
            ++ w_opt w_bool "private" pr ++ w_opt w_words "attributes" a
            ++ w_opt w_bool "serialize" s ++ w_opt w_bool "deserialize" d
            ++ w_opt w_words "forward_attrs" fw ++ w_opt w_default "default" df
          = lits ls ++ flat_map r_chunks rs).
  { rewrite E, <- app_assoc. f_equal. unfold rs. simpl flat_map. unfold r_chunks. simpl fst. simpl snd.
    rewrite app_nil_r. reflexivity. }
  rewrite EC.
  apply (nest_rows serde_names rs ls _ _
           (mk_serde o pu pr a s d fw df (match ls with [] => sh | _ => None end))).
  - unfold rs. repeat constructor; assumption.
  - unfold rs. nodup.
  - unfold rs. known.
  - intros seen L. ask L. unfold rs. simpl lookup.
    assert (V1 : opt_val m1 string_arg = Some (match ls with [] => sh | _ => None end)).
    { destruct N as [[-> V]|(v & -> & -> & _)]; [exact V|reflexivity]. }
    rewrite V1, V2, V3, V4, V5, V6, V7, V8, V9. simpl.
    assert (X : negb (given pu && on pr) = true).
    { destruct pu, pr as [[|]|]; try reflexivity. exfalso. apply O2. split; [discriminate|reflexivity]. }
    rewrite X. reflexivity.
  - destruct N as [[-> V]|(v & -> & -> & ->)]; [reflexivity|]. rewrite literal_name_quoted. reflexivity.
Qed.
