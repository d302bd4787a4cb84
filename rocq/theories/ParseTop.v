(** The two attributes: what is written is read back, what is accepted, and the forms of
    single arguments. *)
From Coq Require Import List Bool String Ascii Permutation Lia.
From Verif Require Import ArgsModel ArgsSpec ArgsProofs TokenSpec TokenModel ParseModel ParseSpec ParseFacts ParseProofs
  ParseForms.
Import ListNotations.
Open Scope string_scope.
Open Scope list_scope.

(** ** Written and read back *)
Lemma rows_top known rs : Forall row_ok rs -> NoDup (map r_name rs) ->
  (forall n, In n (map r_name rs) -> In n known) ->
  exists items seen, parse_meta_list (joined (flat_map r_chunks rs)) = Some items /\ collect known [] items = Some seen /\
    forall n, assoc n seen = lookup n rs.
Proof.
  intros F D K. destruct (rows_read _ F) as [R1 R2].
  destruct (rows_collect known rs F D K) as (seen & C & L).
  exists (map NMeta (row_metas rs)), seen. split; [|split; assumption].
  rewrite (arguments_list _ _ (arguments_joined _ R2)). exact R1.
Qed.
(** Distinct names, by computation. *)
Fixpoint distinct (l : list string) : bool :=
  match l with [] => true | n :: r => negb (mem n r) && distinct r end.
Lemma distinct_NoDup l : distinct l = true -> NoDup l.
Proof.
  induction l as [|n l IH]; simpl; [constructor|]. intros H. apply andb_true_iff in H. destruct H as [H1 H2].
  constructor; [|exact (IH H2)]. intros I. apply mem_In in I. rewrite I in H1. discriminate.
Qed.
Lemma ask_opt {A} seen rs n mo (f : smeta -> option A) o : (forall n, assoc n seen = lookup n rs) ->
  lookup n rs = mo -> opt_val mo f = Some o -> opt_arg seen n f = Some o.
Proof. intros L E V. unfold opt_arg. rewrite L, E. exact V. Qed.
Lemma ask_flag seen rs n mo b : (forall n, assoc n seen = lookup n rs) ->
  lookup n rs = mo -> flag_val mo = Some b -> flag seen n = Some b.
Proof. intros L E V. unfold flag. rewrite L, E. exact V. Qed.

Lemma struct_read s : struct_ok s ->
  exists items seen, parse_meta_list (joined (w_struct s)) = Some items /\
    collect struct_names [] items = Some seen /\ sargs_of seen = Some s.
Proof.
  intros (O1 & O2 & O3 & O4 & O5 & O6 & O7 & O8 & O9 & O10 & O11 & O12 & O13).
  destruct s as [q1 q2 q3 q4 q5 q6 q7 q8 q9 q10 q11 q12 q13 q14 q15 q16 q17 q18 q19 q20 q21 q22 q23 q24 q25 q26 q27].
  simpl in *.
  destruct (opt_row _ _ _ "mode" q1 reads_mode eq_refl (opt_true _)) as (m1 & R1 & V1).
  destruct (opt_row _ _ _ "sync" q2 reads_bool eq_refl (opt_true _)) as (m2 & R2 & V2).
  destruct (opt_row _ _ _ "r#async" q3 reads_bool eq_refl (opt_true _)) as (m3 & R3 & V3).
  destruct (opt_row _ _ _ "builder" q4 (reads_builder_gen true) eq_refl
             ltac:(destruct q4; simpl in *; auto)) as (m4 & R4 & V4).
  destruct (opt_row _ _ _ "into" q5 reads_bool eq_refl (opt_true _)) as (m5 & R5 & V5).
  destruct (opt_row _ _ _ "no_new" q6 reads_bool eq_refl (opt_true _)) as (m6 & R6 & V6).
  destruct (opt_row _ _ _ "default" q7 reads_bool eq_refl (opt_true _)) as (m7 & R7 & V7).
  destruct (opt_row _ _ _ "rc" q8 reads_helper eq_refl O2) as (m8 & R8 & V8).
  destruct (opt_row _ _ _ "attributes" q9 reads_words eq_refl (opt_true _)) as (m9 & R9 & V9).
  destruct (opt_row _ _ _ "attributes_impl" q10 reads_words eq_refl (opt_true _)) as (m10 & R10 & V10).
  destruct (opt_row _ _ _ "fallible" q11 reads_fallible eq_refl O3) as (m11 & R11 & V11).
  destruct (opt_row _ _ _ "lazy" q12 reads_helper eq_refl O4) as (m12 & R12 & V12).
  destruct (opt_row _ _ _ "get" q13 reads_accessor eq_refl O5) as (m13 & R13 & V13).
  destruct (opt_row _ _ _ "get_mut" q14 reads_helper eq_refl O6) as (m14 & R14 & V14).
  destruct (opt_row _ _ _ "set" q15 reads_setter eq_refl O7) as (m15 & R15 & V15).
  destruct (opt_row _ _ _ "reader" q16 reads_helper eq_refl O8) as (m16 & R16 & V16).
  destruct (opt_row _ _ _ "writer" q17 reads_helper eq_refl O9) as (m17 & R17 & V17).
  destruct (opt_row _ _ _ "clearer" q18 reads_helper eq_refl O10) as (m18 & R18 & V18).
  destruct (opt_row _ _ _ "predicate" q19 reads_helper eq_refl O11) as (m19 & R19 & V19).
  destruct (opt_row _ _ _ "optional" q20 reads_bool eq_refl (opt_true _)) as (m20 & R20 & V20).
  destruct (opt_row _ _ _ "public" q21 reads_pub eq_refl O12) as (m21 & R21 & V21).
  destruct (opt_row _ _ _ "private" q22 reads_bool eq_refl (opt_true _)) as (m22 & R22 & V22).
  destruct (opt_row _ _ _ "clone" q23 reads_bool eq_refl (opt_true _)) as (m23 & R23 & V23).
  destruct (opt_row _ _ _ "copy" q24 reads_bool eq_refl (opt_true _)) as (m24 & R24 & V24).
  destruct (opt_row _ _ _ "lock" q25 reads_bool eq_refl (opt_true _)) as (m25 & R25 & V25).
  destruct (opt_row _ _ _ "inner_mut" q26 reads_bool eq_refl (opt_true _)) as (m26 & R26 & V26).
  destruct (opt_row _ _ _ "serde" q27 reads_serde eq_refl O13) as (m27 & R27 & V27).
  destruct (rows_top struct_names
    [("mode", w_opt w_mode "mode" q1, m1); ("sync", w_opt w_bool "sync" q2, m2);
     ("r#async", w_opt w_bool "r#async" q3, m3); ("builder", w_opt w_builder "builder" q4, m4);
     ("into", w_opt w_bool "into" q5, m5);
     ("no_new", w_opt w_bool "no_new" q6, m6); ("default", w_opt w_bool "default" q7, m7);
     ("rc", w_opt w_helper "rc" q8, m8); ("attributes", w_opt w_words "attributes" q9, m9);
     ("attributes_impl", w_opt w_words "attributes_impl" q10, m10);
     ("fallible", w_opt w_fallible "fallible" q11, m11); ("lazy", w_opt w_helper "lazy" q12, m12);
     ("get", w_opt w_accessor "get" q13, m13);
     ("get_mut", w_opt w_helper "get_mut" q14, m14); ("set", w_opt w_setter "set" q15, m15);
     ("reader", w_opt w_helper "reader" q16, m16); ("writer", w_opt w_helper "writer" q17, m17);
     ("clearer", w_opt w_helper "clearer" q18, m18);
     ("predicate", w_opt w_helper "predicate" q19, m19); ("optional", w_opt w_bool "optional" q20, m20);
     ("public", w_opt w_pub "public" q21, m21); ("private", w_opt w_bool "private" q22, m22);
     ("clone", w_opt w_bool "clone" q23, m23); ("copy", w_opt w_bool "copy" q24, m24);
     ("lock", w_opt w_bool "lock" q25, m25); ("inner_mut", w_opt w_bool "inner_mut" q26, m26);
     ("serde", w_opt w_serde "serde" q27, m27)])
    as (items & seen & H1 & H2 & L).
  - repeat (apply Forall_cons; [eassumption|]). apply Forall_nil.
  - apply distinct_NoDup. reflexivity.
  - intros n H. exact H.
  - exists items, seen. split; [|split; [exact H2|]].
    + rewrite <- H1. unfold w_struct. cbn [flat_map r_chunks fst snd]. rewrite app_nil_r. reflexivity.
    + unfold sargs_of.
      rewrite (ask_opt _ _ "mode" _ _ _ L eq_refl V1). cbn [obind].
      rewrite (ask_opt _ _ "sync" _ _ _ L eq_refl V2). cbn [obind].
      rewrite (ask_opt _ _ "r#async" _ _ _ L eq_refl V3). cbn [obind].
      rewrite (ask_opt _ _ "builder" _ _ _ L eq_refl V4). cbn [obind].
      rewrite (ask_opt _ _ "into" _ _ _ L eq_refl V5). cbn [obind].
      rewrite (ask_opt _ _ "no_new" _ _ _ L eq_refl V6). cbn [obind].
      rewrite (ask_opt _ _ "default" _ _ _ L eq_refl V7). cbn [obind].
      rewrite (ask_opt _ _ "rc" _ _ _ L eq_refl V8). cbn [obind].
      rewrite (ask_opt _ _ "attributes" _ _ _ L eq_refl V9). cbn [obind].
      rewrite (ask_opt _ _ "attributes_impl" _ _ _ L eq_refl V10). cbn [obind].
      rewrite (ask_opt _ _ "fallible" _ _ _ L eq_refl V11). cbn [obind].
      rewrite (ask_opt _ _ "lazy" _ _ _ L eq_refl V12). cbn [obind].
      rewrite (ask_opt _ _ "get" _ _ _ L eq_refl V13). cbn [obind].
      rewrite (ask_opt _ _ "get_mut" _ _ _ L eq_refl V14). cbn [obind].
      rewrite (ask_opt _ _ "set" _ _ _ L eq_refl V15). cbn [obind].
      rewrite (ask_opt _ _ "reader" _ _ _ L eq_refl V16). cbn [obind].
      rewrite (ask_opt _ _ "writer" _ _ _ L eq_refl V17). cbn [obind].
      rewrite (ask_opt _ _ "clearer" _ _ _ L eq_refl V18). cbn [obind].
      rewrite (ask_opt _ _ "predicate" _ _ _ L eq_refl V19). cbn [obind].
      rewrite (ask_opt _ _ "optional" _ _ _ L eq_refl V20). cbn [obind].
      rewrite (ask_opt _ _ "public" _ _ _ L eq_refl V21). cbn [obind].
      rewrite (ask_opt _ _ "private" _ _ _ L eq_refl V22). cbn [obind].
      rewrite (ask_opt _ _ "clone" _ _ _ L eq_refl V23). cbn [obind].
      rewrite (ask_opt _ _ "copy" _ _ _ L eq_refl V24). cbn [obind].
      rewrite (ask_opt _ _ "lock" _ _ _ L eq_refl V25). cbn [obind].
      rewrite (ask_opt _ _ "inner_mut" _ _ _ L eq_refl V26). cbn [obind].
      rewrite (ask_opt _ _ "serde" _ _ _ L eq_refl V27). cbn [obind].
      reflexivity.
Qed.

Lemma field_read f : field_ok f ->
  exists items seen, parse_meta_list (joined (w_field f)) = Some items /\
    collect field_names [] items = Some seen /\
    field_of (f_ident f) (f_vis f) (f_ty f) (f_attrs f) seen = Some f.
Proof.
  intros (O1 & O2 & O3 & O4 & O5 & O6 & O7 & O8 & O9 & O10 & O11 & O12 & O13).
  destruct f as [i v t a sk q1 q2 q3 q4 q5 q6 q7 q8 q9 q10 q11 q12 q13 q14 q15 q16 q17 q18 q19 q20 q21 q22 q23 q24 q25].
  simpl in *.
  destruct (flag_row "skip" sk eq_refl) as (m0 & R0 & V0).
  destruct (opt_row _ _ _ "mode" q1 reads_mode eq_refl (opt_true _)) as (m1 & R1 & V1).
  destruct (opt_row _ _ _ "sync" q2 reads_bool eq_refl (opt_true _)) as (m2 & R2 & V2).
  destruct (opt_row _ _ _ "r#async" q3 reads_bool eq_refl (opt_true _)) as (m3 & R3 & V3).
  destruct (opt_row _ _ _ "attributes_fn" q4 reads_words eq_refl (opt_true _)) as (m4 & R4 & V4).
  destruct (opt_row _ _ _ "fallible" q5 reads_fallible eq_refl O1) as (m5 & R5 & V5).
  destruct (opt_row _ _ _ "lazy" q6 reads_helper eq_refl O2) as (m6 & R6 & V6).
  destruct (opt_row _ _ _ "rename" q7 reads_str eq_refl (opt_true _)) as (m7 & R7 & V7).
  destruct (opt_row _ _ _ "get" q8 reads_accessor eq_refl O3) as (m8 & R8 & V8).
  destruct (opt_row _ _ _ "get_mut" q9 reads_helper eq_refl O4) as (m9 & R9 & V9).
  destruct (opt_row _ _ _ "set" q10 reads_setter eq_refl O5) as (m10 & R10 & V10).
  destruct (opt_row _ _ _ "reader" q11 reads_helper eq_refl O6) as (m11 & R11 & V11).
  destruct (opt_row _ _ _ "writer" q12 reads_helper eq_refl O7) as (m12 & R12 & V12).
  destruct (opt_row _ _ _ "clearer" q13 reads_helper eq_refl O8) as (m13 & R13 & V13).
  destruct (opt_row _ _ _ "predicate" q14 reads_helper eq_refl O9) as (m14 & R14 & V14).
  destruct (opt_row _ _ _ "optional" q15 reads_bool eq_refl (opt_true _)) as (m15 & R15 & V15).
  destruct (opt_row _ _ _ "public" q16 reads_pub eq_refl O10) as (m16 & R16 & V16).
  destruct (opt_row _ _ _ "private" q17 reads_bool eq_refl (opt_true _)) as (m17 & R17 & V17).
  destruct (opt_row _ _ _ "default" q18 reads_default eq_refl O11) as (m18 & R18 & V18).
  destruct (opt_row _ _ _ "builder" q19 (reads_builder_gen false) eq_refl
             ltac:(destruct q19; simpl in *; tauto)) as (m19 & R19 & V19).
  destruct (opt_row _ _ _ "into" q20 reads_bool eq_refl (opt_true _)) as (m20 & R20 & V20).
  destruct (opt_row _ _ _ "clone" q21 reads_bool eq_refl (opt_true _)) as (m21 & R21 & V21).
  destruct (opt_row _ _ _ "copy" q22 reads_bool eq_refl (opt_true _)) as (m22 & R22 & V22).
  destruct (opt_row _ _ _ "lock" q23 reads_bool eq_refl (opt_true _)) as (m23 & R23 & V23).
  destruct (opt_row _ _ _ "inner_mut" q24 reads_bool eq_refl (opt_true _)) as (m24 & R24 & V24).
  destruct (opt_row _ _ _ "serde" q25 reads_serde eq_refl O13) as (m25 & R25 & V25).
  destruct (rows_top field_names
    [("skip", w_flag "skip" sk, m0); ("mode", w_opt w_mode "mode" q1, m1);
     ("sync", w_opt w_bool "sync" q2, m2); ("r#async", w_opt w_bool "r#async" q3, m3);
     ("attributes_fn", w_opt w_words "attributes_fn" q4, m4);
     ("fallible", w_opt w_fallible "fallible" q5, m5); ("lazy", w_opt w_helper "lazy" q6, m6);
     ("rename", w_opt w_str "rename" q7, m7); ("get", w_opt w_accessor "get" q8, m8);
     ("get_mut", w_opt w_helper "get_mut" q9, m9);
     ("set", w_opt w_setter "set" q10, m10); ("reader", w_opt w_helper "reader" q11, m11);
     ("writer", w_opt w_helper "writer" q12, m12); ("clearer", w_opt w_helper "clearer" q13, m13);
     ("predicate", w_opt w_helper "predicate" q14, m14);
     ("optional", w_opt w_bool "optional" q15, m15); ("public", w_opt w_pub "public" q16, m16);
     ("private", w_opt w_bool "private" q17, m17); ("default", w_opt w_default "default" q18, m18);
     ("builder", w_opt w_builder "builder" q19, m19);
     ("into", w_opt w_bool "into" q20, m20); ("clone", w_opt w_bool "clone" q21, m21);
     ("copy", w_opt w_bool "copy" q22, m22); ("lock", w_opt w_bool "lock" q23, m23);
     ("inner_mut", w_opt w_bool "inner_mut" q24, m24);
     ("serde", w_opt w_serde "serde" q25, m25)])
    as (items & seen & H1 & H2 & L).
  - repeat (apply Forall_cons; [eassumption|]). apply Forall_nil.
  - apply distinct_NoDup. reflexivity.
  - intros n H. exact H.
  - exists items, seen. split; [|split; [exact H2|]].
    + rewrite <- H1. unfold w_field. cbn [flat_map r_chunks fst snd]. rewrite app_nil_r. reflexivity.
    + unfold field_of. rewrite (ask_flag _ _ "skip" _ _ L eq_refl V0). cbn [obind].
      rewrite (ask_opt _ _ "mode" _ _ _ L eq_refl V1). cbn [obind].
      rewrite (ask_opt _ _ "sync" _ _ _ L eq_refl V2). cbn [obind].
      rewrite (ask_opt _ _ "r#async" _ _ _ L eq_refl V3). cbn [obind].
      rewrite (ask_opt _ _ "attributes_fn" _ _ _ L eq_refl V4). cbn [obind].
      rewrite (ask_opt _ _ "fallible" _ _ _ L eq_refl V5). cbn [obind].
      rewrite (ask_opt _ _ "lazy" _ _ _ L eq_refl V6). cbn [obind].
      rewrite (ask_opt _ _ "rename" _ _ _ L eq_refl V7). cbn [obind].
      rewrite (ask_opt _ _ "get" _ _ _ L eq_refl V8). cbn [obind].
      rewrite (ask_opt _ _ "get_mut" _ _ _ L eq_refl V9). cbn [obind].
      rewrite (ask_opt _ _ "set" _ _ _ L eq_refl V10). cbn [obind].
      rewrite (ask_opt _ _ "reader" _ _ _ L eq_refl V11). cbn [obind].
      rewrite (ask_opt _ _ "writer" _ _ _ L eq_refl V12). cbn [obind].
      rewrite (ask_opt _ _ "clearer" _ _ _ L eq_refl V13). cbn [obind].
      rewrite (ask_opt _ _ "predicate" _ _ _ L eq_refl V14). cbn [obind].
      rewrite (ask_opt _ _ "optional" _ _ _ L eq_refl V15). cbn [obind].
      rewrite (ask_opt _ _ "public" _ _ _ L eq_refl V16). cbn [obind].
      rewrite (ask_opt _ _ "private" _ _ _ L eq_refl V17). cbn [obind].
      rewrite (ask_opt _ _ "default" _ _ _ L eq_refl V18). cbn [obind].
      rewrite (ask_opt _ _ "builder" _ _ _ L eq_refl V19). cbn [obind].
      rewrite (ask_opt _ _ "into" _ _ _ L eq_refl V20). cbn [obind].
      rewrite (ask_opt _ _ "clone" _ _ _ L eq_refl V21). cbn [obind].
      rewrite (ask_opt _ _ "copy" _ _ _ L eq_refl V22). cbn [obind].
      rewrite (ask_opt _ _ "lock" _ _ _ L eq_refl V23). cbn [obind].
      rewrite (ask_opt _ _ "inner_mut" _ _ _ L eq_refl V24). cbn [obind].
      rewrite (ask_opt _ _ "serde" _ _ _ L eq_refl V25). cbn [obind].
      reflexivity.
Qed.

(** ** Checks after reading *)
Lemma struct_no_errors s : sargs_errors s = [] <-> harmonious struct_conflicts (enabled_s s).
Proof.
  split.
  - intros E g ps I C. pose proof (proj2 (sargs_errors_spec s g) (ex_intro _ ps (conj I C))) as H.
    rewrite E in H. destruct H.
  - intros H. destruct (sargs_errors s) as [|[g x] l] eqn:E; [reflexivity|]. exfalso.
    destruct (proj1 (sargs_errors_spec s g)) as (ps & I & C); [rewrite E; left; reflexivity|]. exact (H g ps I C).
Qed.
Lemma field_no_errors f : field_errors f = [] <-> harmonious field_conflicts (enabled_f f).
Proof.
  split.
  - intros E g ps I C. pose proof (proj2 (field_errors_spec f g) (ex_intro _ ps (conj I C))) as H.
    rewrite E in H. destruct H.
  - intros H. destruct (field_errors f) as [|[g x] l] eqn:E; [reflexivity|]. exfalso.
    destruct (proj1 (field_errors_spec f g)) as (ps & I & C); [rewrite E; left; reflexivity|]. exact (H g ps I C).
Qed.
Lemma features_allowed ft sync async w : features_ok ft sync async w = true <-> allowed ft sync async w.
Proof.
  unfold features_ok, allowed. rewrite !andb_true_iff, !orb_true_iff, !negb_true_iff. split.
  - intros [[H1 H2] H3]. split; [|split].
    + intros ->. destruct H1 as [H|H]; [exact H|discriminate].
    + intros ->. destruct H2 as [H|H]; [exact H|discriminate].
    + intros x -> E. destruct H3 as [H|H]; [exact H|]. rewrite E in H. discriminate.
  - intros (H1 & H2 & H3). repeat split.
    + destruct sync as [[]|]; [left; auto|right; reflexivity|right; reflexivity].
    + destruct async as [[]|]; [left; auto|right; reflexivity|right; reflexivity].
    + destruct w as [x|]; [|right; reflexivity].
      destruct (se_off x) eqn:E; [right; reflexivity|left; exact (H3 x eq_refl E)].
Qed.
Lemma struct_written_read ft s : struct_ok s ->
  let r := read_struct ft (joined (w_struct s)) in
  let fine := harmonious struct_conflicts (enabled_s s) /\
              allowed ft (s_mode_sync s) (s_mode_async s) (s_serde s) in
  (fine -> r = Some s) /\ (~ fine -> r = None).
Proof.
  intros O. destruct (struct_read s O) as (items & seen & H1 & H2 & H3). simpl.
  unfold read_struct. rewrite H1. cbn [obind]. rewrite H2. cbn [obind]. rewrite H3. cbn [obind].
  rewrite <- struct_no_errors, <- features_allowed. split.
  - intros [-> ->]. reflexivity.
  - intros N. destruct (sargs_errors s); [|reflexivity]. cbn [obind ensure].
    destruct (features_ok ft (s_mode_sync s) (s_mode_async s) (s_serde s)); [|reflexivity]. exfalso. apply N. auto.
Qed.
Lemma field_written_read ft f l : field_ok f -> gathered l (w_field f) -> ~ In FWord l ->
  let r := read_field ft (f_ident f) (f_vis f) (f_ty f) (f_attrs f) l in
  let fine := harmonious field_conflicts (enabled_f f) /\
              allowed ft (f_mode_sync f) (f_mode_async f) (f_serde f) in
  (fine -> r = Some f) /\ (~ fine -> r = None).
Proof.
  intros O G W. destruct (field_read f O) as (items & seen & H1 & H2 & H3). simpl.
  assert (E : existsb is_word l = false).
  { clear - W. induction l as [|x l IH]; [reflexivity|]. simpl. destruct x; simpl.
    - exfalso. apply W. left. reflexivity.
    - apply IH. intros I. apply W. right. exact I.
    - apply IH. intros I. apply W. right. exact I. }
  assert (H1' : field_items l = Some items).
  { rewrite (gathered_items _ _ G), <- H1. symmetry. apply arguments_list. apply arguments_joined.
    clear - G. induction G as [|l cs G IH|ts l cs ds A G IH]; [constructor|exact IH|].
    apply Forall_app. split; [|exact IH]. apply Forall_forall. intros c. apply (arguments_each _ _ _ A). }
  unfold read_field. rewrite H1'. cbn [obind]. rewrite H2. cbn [obind]. rewrite H3. cbn [obind]. rewrite E.
  rewrite <- field_no_errors, <- features_allowed. split.
  - intros [-> ->]. reflexivity.
  - intros N. destruct (field_errors f); [|reflexivity]. cbn [obind ensure].
    destruct (features_ok ft (f_mode_sync f) (f_mode_async f) (f_serde f)); [|reflexivity]. exfalso. apply N. auto.
Qed.
Lemma struct_accepted ft ts s : read_struct ft ts = Some s ->
  harmonious struct_conflicts (enabled_s s) /\ allowed ft (s_mode_sync s) (s_mode_async s) (s_serde s).
Proof.
  intros H. destruct (read_struct_inv _ _ _ H) as (cs & items & seen & _ & _ & _ & _ & E & F).
  split; [apply struct_no_errors; exact E|apply features_allowed; exact F].
Qed.
Lemma field_accepted ft i v t a l f : read_field ft i v t a l = Some f ->
  harmonious field_conflicts (enabled_f f) /\ allowed ft (f_mode_sync f) (f_mode_async f) (f_serde f).
Proof.
  intros H. destruct (read_field_inv _ _ _ _ _ _ _ H) as (cs & items & seen & f0 & _ & _ & _ & _ & _ & E & F).
  split; [apply field_no_errors; exact E|apply features_allowed; exact F].
Qed.

(** ** Order *)
Lemma chunks_items cs ds cs' : shuffled_each cs ds -> Permutation ds cs' ->
  orel isims (all_some parse_nested cs) (all_some parse_nested cs').
Proof.
  intros E P. pose proof (shuffled_each_items _ _ E) as H1. pose proof (all_some_perm parse_nested _ _ P) as H2.
  destruct (all_some parse_nested cs) as [a|], (all_some parse_nested ds) as [b|]; simpl in H1; try contradiction.
  - destruct (all_some parse_nested cs') as [c|]; simpl in *; [|contradiction]. exists b. auto.
  - destruct (all_some parse_nested cs') as [c|]; simpl in *; [contradiction|exact I].
Qed.
Lemma struct_order ft ts ts' : shuffled ts ts' -> read_struct ft ts = read_struct ft ts'.
Proof.
  intros S. pose proof (shuffled_items _ _ S) as H. unfold read_struct.
  destruct (parse_meta_list ts) as [l|], (parse_meta_list ts') as [l'|]; simpl in H; try contradiction; [|reflexivity].
  cbn [obind]. pose proof (collect_sim struct_names _ _ H) as C.
  destruct (collect struct_names [] l), (collect struct_names [] l'); simpl in C; try contradiction; [|reflexivity].
  cbn [obind]. rewrite (sargs_of_blind _ _ C). reflexivity.
Qed.
Lemma word_in l : existsb is_word l = true <-> In FWord l.
Proof.
  rewrite existsb_exists. split.
  - intros ([| |] & I & E); try discriminate. exact I.
  - intros I. exists FWord. auto.
Qed.
Lemma words_same l l' : (In FWord l <-> In FWord l') -> existsb is_word l = existsb is_word l'.
Proof.
  intros H. pose proof (word_in l). pose proof (word_in l').
  destruct (existsb is_word l), (existsb is_word l'); auto; exfalso;
    match goal with H : true = true <-> _ |- _ => pose proof (proj1 H eq_refl) end; intuition discriminate.
Qed.
Lemma field_order ft i v t a l l' cs ds cs' : gathered l cs -> gathered l' cs' -> (In FWord l <-> In FWord l') ->
  shuffled_each cs ds -> Permutation ds cs' -> read_field ft i v t a l = read_field ft i v t a l'.
Proof.
  intros G G' W S P. pose proof (chunks_items _ _ _ S P) as H. unfold read_field.
  rewrite (gathered_items _ _ G), (gathered_items _ _ G'), (words_same _ _ W).
  destruct (all_some parse_nested cs) as [x|], (all_some parse_nested cs') as [y|]; simpl in H; try contradiction;
    [|reflexivity].
  cbn [obind]. pose proof (collect_sim field_names _ _ H) as C.
  destruct (collect field_names [] x), (collect field_names [] y); simpl in C; try contradiction; [|reflexivity].
  cbn [obind]. rewrite (field_of_blind i v t a _ _ C). reflexivity.
Qed.

(** ** Nothing in parentheses *)
Inductive esim : smeta -> smeta -> Prop :=
| es_refl : forall m, esim m m
| es_empty : forall p d, ~ In (path_name p) filled -> esim (SPath p) (SList p d []).
Inductive nsim : nmeta -> nmeta -> Prop :=
| ns_lit : forall s, nsim (NLit s) (NLit s)
| ns_meta : forall m m', esim m m' -> nsim (NMeta m) (NMeta m').
Lemma emptied_items cs cs' : Forall2 emptied cs cs' ->
  orel (Forall2 nsim) (all_some parse_nested cs) (all_some parse_nested cs').
Proof.
  induction 1 as [|c c' cs cs' E F IH]; [constructor|]. rewrite !all_some_cons.
  destruct E as [c|n d K N D].
  - destruct (parse_nested c) as [i|]; [|exact I].
    destruct (all_some parse_nested cs), (all_some parse_nested cs'); simpl in *; try contradiction; auto.
    constructor; [|exact IH]. destruct i; constructor. constructor.
  - apply name_ok_segment in K. rewrite nested_word by exact K. rewrite parse_nested_list by exact D. rewrite K.
    destruct (all_some parse_nested cs), (all_some parse_nested cs'); simpl in *; try contradiction; auto.
    constructor; [|exact IH]. constructor. constructor. exact N.
Qed.
Definition essim (s s' : list (string * smeta)) : Prop :=
  (forall n, orel esim (assoc n s) (assoc n s')) /\ (forall n m, assoc n s = Some m -> meta_name m = n).
Lemma collect_emptied known l l' : Forall2 nsim l l' -> forall s s', essim s s' ->
  orel essim (collect known s l) (collect known s' l').
Proof.
  induction 1 as [|i j l l' N F IH]; intros s s' E; [exact E|]. destruct N as [x|m m' M]; [exact I|].
  simpl. assert (Q : meta_name m = meta_name m') by (destruct M; reflexivity). rewrite <- Q.
  assert (Q' : is_some (assoc (meta_name m) s) = is_some (assoc (meta_name m) s')).
  { destruct E as [E _]. specialize (E (meta_name m)).
    destruct (assoc (meta_name m) s), (assoc (meta_name m) s'); simpl in *; tauto. }
  rewrite <- Q'. destruct (mem (meta_name m) known && negb (is_some (assoc (meta_name m) s))); [|exact I].
  apply IH. destruct E as [E1 E2]. split.
  - intros n. simpl. destruct (String.eqb n (meta_name m)); [exact M|apply E1].
  - intros n x. simpl. destruct (String.eqb_spec n (meta_name m)); [|apply E2]. intros H. inversion H; subst. reflexivity.
Qed.
Lemma opt_emptied {A} n (f : smeta -> option A) s s' : essim s s' ->
  (forall p d, f (SPath p) = f (SList p d [])) -> opt_arg s n f = opt_arg s' n f.
Proof.
  intros [E _] H. unfold opt_arg. specialize (E n).
  destruct (assoc n s), (assoc n s'); simpl in *; try contradiction; auto.
  destruct E; [reflexivity|]. rewrite <- H. reflexivity.
Qed.
Lemma opt_filled {A} n (f : smeta -> option A) s s' : essim s s' -> In n filled -> opt_arg s n f = opt_arg s' n f.
Proof.
  intros [E N] I. unfold opt_arg. specialize (E n). specialize (N n).
  destruct (assoc n s) as [m|], (assoc n s'); simpl in *; try contradiction; auto.
  pose proof (N m eq_refl) as Q. destruct E; [reflexivity|]. exfalso. apply H. subst n. exact I.
Qed.
Lemma flag_filled n s s' : essim s s' -> In n filled -> flag s n = flag s' n.
Proof.
  intros [E N] I. unfold flag. specialize (E n). specialize (N n).
  destruct (assoc n s) as [m|], (assoc n s'); simpl in *; try contradiction; auto.
  pose proof (N m eq_refl) as Q. destruct E; [reflexivity|]. exfalso. apply H. subst n. exact I.
Qed.
Ltac empties S :=
  repeat match goal with
  | |- ?a = ?a => reflexivity
  | |- obind (flag ?s ?n) ?k = _ => rewrite (flag_filled n _ _ S ltac:(simpl; tauto))
  | |- obind (opt_arg ?s ?n ?f) ?k = _ =>
      first [ rewrite (opt_filled n f _ _ S ltac:(simpl; tauto))
            | rewrite (opt_emptied n f _ _ S ltac:(intros; reflexivity)) ]
  | |- obind ?e ?k = obind ?e ?k' => destruct e; cbn [obind]; [|reflexivity]
  end.
Lemma sargs_of_emptied s s' : essim s s' -> sargs_of s = sargs_of s'.
Proof. intros S. unfold sargs_of. empties S. Qed.
Lemma field_of_emptied i v t a s s' : essim s s' -> field_of i v t a s = field_of i v t a s'.
Proof. intros S. unfold field_of. empties S. Qed.
Lemma essim_nil : essim [] [].
Proof. split; [intros n; exact I|discriminate]. Qed.
Lemma struct_emptied ft cs cs' ts ts' : arguments cs ts -> arguments cs' ts' -> Forall2 emptied cs cs' ->
  read_struct ft ts = read_struct ft ts'.
Proof.
  intros A A' F. pose proof (emptied_items _ _ F) as H. unfold read_struct.
  rewrite (arguments_list _ _ A), (arguments_list _ _ A').
  destruct (all_some parse_nested cs) as [l|], (all_some parse_nested cs') as [l'|]; simpl in H; try contradiction;
    [|reflexivity].
  cbn [obind]. pose proof (collect_emptied struct_names _ _ H [] [] essim_nil) as C.
  destruct (collect struct_names [] l), (collect struct_names [] l'); simpl in C; try contradiction; [|reflexivity].
  cbn [obind]. rewrite (sargs_of_emptied _ _ C). reflexivity.
Qed.
Lemma field_emptied ft i v t a l l' cs cs' : gathered l cs -> gathered l' cs' -> (In FWord l <-> In FWord l') ->
  Forall2 emptied cs cs' -> read_field ft i v t a l = read_field ft i v t a l'.
Proof.
  intros G G' W F. pose proof (emptied_items _ _ F) as H. unfold read_field.
  rewrite (gathered_items _ _ G), (gathered_items _ _ G'), (words_same _ _ W).
  destruct (all_some parse_nested cs) as [x|], (all_some parse_nested cs') as [y|]; simpl in H; try contradiction;
    [|reflexivity].
  cbn [obind]. pose proof (collect_emptied field_names _ _ H [] [] essim_nil) as C.
  destruct (collect field_names [] x), (collect field_names [] y); simpl in C; try contradiction; [|reflexivity].
  cbn [obind]. rewrite (field_of_emptied i v t a _ _ C). reflexivity.
Qed.
