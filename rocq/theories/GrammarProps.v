(** C75: the arguments that are accepted. *)
From Coq Require Import List Bool String Ascii.
From Verif Require Import ArgsModel ArgsSpec TokenSpec ParseInput ParseSpec ParseModel ParseFacts GrammarSpec GrammarProofs.
Import ListNotations.
Open Scope string_scope.
Open Scope list_scope.

Definition ww (s : string) : tok := TIdent s.
Definition pp (l : list tok) : tok := TGroup DParen l.
Definition ss (s : string) : tok := TLit (String """" (s ++ """")).
Definition cc : tok := TPunct ",".
Definition every_feature : features := mk_features true true true.

(** Tokens between the parentheses of [#[fxstruct(...)]] are accepted if and only if they
    are arguments of the table, none twice, no two that exclude each other, and the features
    that they need are there. *)
Theorem C75_struct_grammar : forall ft ts,
  read_struct ft ts <> None <->
  exists cs, arguments cs ts /\ grammatical struct_table struct_rules cs /\ featured ft cs.
Proof. exact struct_grammar. Qed.
Print Assumptions C75_struct_grammar.
(** The same for the attributes of a field; the bare ones do not matter. *)
Theorem C75_field_grammar : forall ft i v t a l,
  read_field ft i v t a l <> None <->
  exists cs, gathered l cs /\ grammatical field_table field_rules cs /\ featured ft cs.
Proof. exact field_grammar. Qed.
Print Assumptions C75_field_grammar.

Definition C75_tokens : list tok :=
  [ww "r#async"; pp [ww "off"]; cc; ww "mode"; pp [ww "sync"]; cc;
   ww "builder"; pp [ww "error"; pp [ww "E"; TPunct ":"; TPunct ":"; ww "A"; cc; ww "B"; cc]; cc;
                     ww "post_build"; TGroup DBracket [ww "check"]; cc; ww "public"; pp [ww "in_mod"; TPunct "="; ww "m"]]; cc;
   ww "serde"; pp [ww "forward_attrs"; pp [ww "serde"; cc; ww "a"; TPunct ":"; TPunct ":"; ww "b"]; cc; ww "public"; cc;
                   ww "private"; pp [ww "off"]; cc; ss "Dup"]; cc;
   ww "set"; pp [ww "into"; TPunct "="; ss "false"]; cc].
Example C75_case : exists cs, arguments cs C75_tokens /\ grammatical struct_table struct_rules cs /\ List.length cs = 5 /\
  on_in "serde" cs /\ ~ on_in "r#async" cs /\ featured (mk_features false false true) cs.
Proof.
  assert (A : read_struct (mk_features false false true) C75_tokens <> None) by (vm_compute; discriminate).
  apply struct_grammar in A. destruct A as (cs & A & G & F). exists cs. split; [exact A|]. split; [exact G|].
  pose proof (arguments_terminated _ _ A) as E. vm_compute in E. subst cs. split; [reflexivity|].
  split; [|split; [|exact F]].
  - eexists _, _. split; [do 3 right; left; reflexivity|]. split; [constructor|].
    intros (d & ts & cs & c & Q & B & I & X). injection Q as <- <-.
    pose proof (arguments_terminated _ _ B) as E. vm_compute in E. subst cs.
    repeat (destruct I as [<-|I]; [inversion X|]). destruct I.
  - intros (c & r & I & X & O).
    repeat (destruct I as [<-|I]; [inversion X; subst; try (apply O; do 4 eexists; split; [reflexivity|];
      split; [apply args_last; split; [discriminate|intros [Y|[]]; discriminate]|]; split; [left; reflexivity|constructor])|]).
    destruct I.
Qed.
(** One change to it at a time, and it is refused: a path with arguments, three errors, a
    number for a name, a word for [into], a second name, both of [public] and [private], a
    struct argument that only fields know, a string where none is wanted. *)
Example C75_near_misses : forall ts, In ts
   [ [ww "serde"; pp [ww "forward_attrs"; pp [ww "a"; pp [ww "b"]]]];
     [ww "builder"; pp [ww "error"; pp [ww "A"; cc; ww "B"; cc; ww "C"]]];
     [ww "get"; pp [TLit "1"]];
     [ww "set"; pp [ww "into"; TPunct "="; ww "maybe"]];
     [ww "get"; pp [ss "a"; cc; ss "b"]];
     [ww "get"; pp [ww "public"; cc; ww "private"; pp [ww "off"]]];
     [ww "skip"]; [ww "rename"; pp [ss "a"]]; [ww "sync"; pp [ss "on"]]; [ww "get"; cc; ww "set"; cc; ww "get"];
     [ww "serde"; cc; ww "rc"]; [ww "mode"; pp [ww "lazy"]]; [ww "post_build"]; [ww "builder"; pp [ww "init"; pp [ww "f"]]];
     [ww "fallible"; pp [ww "error"; pp [ww "A"; cc; ww "B"]]]; [ww "rc"; TPunct "="; ww "true"]; [cc] ] ->
  forall cs, arguments cs ts -> ~ grammatical struct_table struct_rules cs.
Proof.
  intros ts I cs A G.
  assert (N : read_struct every_feature ts <> None).
  { apply struct_grammar. exists cs. split; [exact A|]. split; [exact G|]. repeat split; reflexivity. }
  apply N. simpl in I. repeat (destruct I as [<-|I]; [vm_compute; reflexivity|]). destruct I.
Qed.
Definition C75_attrs : list fattr :=
  [FWord; FList [ww "default"; pp [ww "Some"; pp [TLit "1"]]; cc; ww "rename"; pp [ss "x"]];
   FList [ww "lazy"; pp [ww "off"]; cc; ww "optional"; cc; ww "get"; pp [ww "as_ref"; cc; ww "attributes_fn"; pp [ww "inline"]]]].
Example C75_field_case : exists cs, gathered C75_attrs cs /\ grammatical field_table field_rules cs /\
  given_in "lazy" cs /\ on_in "optional" cs /\ ~ on_in "lazy" cs.
Proof.
  assert (A : read_field every_feature "a" "" "u8" [] C75_attrs <> None) by (vm_compute; discriminate).
  apply field_grammar in A. destruct A as (cs & A & G & F). exists cs. split; [exact A|]. split; [exact G|].
  inversion A as [|l cs0 G0|]; subst. inversion G0 as [| |ts l c1 d1 A1 G1]; subst.
  inversion G1 as [| |ts l c2 d2 A2 G2]; subst. inversion G2; subst.
  pose proof (arguments_terminated _ _ A1) as E1. pose proof (arguments_terminated _ _ A2) as E2.
  vm_compute in E1, E2. subst c1 c2. split; [|split].
  - eexists. split; [do 2 right; left; reflexivity|]. eexists. constructor.
  - eexists _, _. split; [do 3 right; left; reflexivity|]. split; [constructor|].
    intros (d & ts & cs & c & Q & _). discriminate.
  - intros (c & r & I & X & O).
    repeat (destruct I as [<-|I]; [inversion X; subst; try (apply O; do 4 eexists; split; [reflexivity|];
      split; [apply args_last; split; [discriminate|intros [Y|[]]; discriminate]|]; split; [left; reflexivity|constructor])|]).
    destruct I.
Qed.
Example C75_field_near_misses : forall ts, In ts
   [ [ww "builder"; pp [ww "opt_in"]]; [ww "builder"; pp [ww "error"; pp [ww "E"]]]; [ww "no_new"]; [ww "rc"];
     [ww "default"; pp [ww "a"; cc; ww "b"]]; [ww "default"; TPunct "="; TLit "1"]; [ww "rename"]; [ww "skip"; pp []];
     [ww "lazy"; cc; ww "optional"]; [ww "fallible"; cc; ww "lock"]; [ww "sync"; cc; ww "r#async"];
     [ww "get"; pp [ww "clone"; cc; ww "copy"]]; [ww "get"; pp [ww "clone"; pp [ww "off"]]]; [TLit """a"""] ] ->
  forall cs, arguments cs ts -> ~ grammatical field_table field_rules cs.
Proof.
  intros ts I cs A G.
  assert (N : read_field every_feature "a" "" "u8" [] [FList ts] <> None).
  { apply field_grammar. exists cs. split; [rewrite <- (app_nil_r cs); constructor; [exact A|constructor]|].
    split; [exact G|]. repeat split; reflexivity. }
  apply N. simpl in I. repeat (destruct I as [<-|I]; [vm_compute; reflexivity|]). destruct I.
Qed.
(** What is accepted is read as written: an argument that makes a method is asked for when
    it is given without [off], turned off when it is given with [off], and otherwise left
    to the defaults. *)
Theorem C75_struct_off : forall ft ts s cs n get,
  read_struct ft ts = Some s -> arguments cs ts -> In (n, get) struct_helpers -> says n cs (said (get s)).
Proof. exact struct_says. Qed.
Print Assumptions C75_struct_off.
(** On a field too, unless there is a bare [#[fieldx]]. *)
Theorem C75_field_off : forall ft i v t a l f cs n get,
  read_field ft i v t a l = Some f -> gathered l cs -> ~ In FWord l ->
  In (n, get) field_helpers -> says n cs (said (get f)).
Proof. exact field_says. Qed.
Print Assumptions C75_field_off.

Example C75_off_case : exists s, read_struct every_feature
    [ww "get"; cc; ww "set"; pp [ww "off"; cc; ww "into"]; cc; ww "lazy"; pp [ss "mk"]] = Some s /\
  map (fun p => said (snd p s)) struct_helpers =
    [Some true; Some true; None; Some false; None; None; None; None; None; None].
Proof. eexists. split; vm_compute; reflexivity. Qed.
Example C75_field_off_case : exists f, read_field every_feature "a" "" "u8" []
    [FList [ww "get_mut"; pp [ww "off"]]; FList [ww "builder"; pp [ww "required"; cc; ww "off"; cc]]] = Some f /\
  map (fun p => said (snd p f)) field_helpers =
    [None; None; Some false; None; None; None; None; None; Some false].
Proof. eexists. split; vm_compute; reflexivity. Qed.
