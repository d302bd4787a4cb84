(** Property C92: calls on a shared object make a bounded number of steps, and end. *)
From Coq Require Import List Bool String Arith Lia.
From Verif Require Import ProxyTypes ArgsModel CtxModel ArgsSpec TokenSpec ParseInput ParseModel ParseSpec ParseForms GrammarSpec GrammarProps
  ArgsFixtures ArgsProps CodegenProps GuardCell RustAst CommonGen StructGen CodegenSpec FieldSpec FieldRun FieldProps
  WrittenSpec WrittenProofs WrittenNames WrittenProps SignSpec SignTypes SignMethods SignProps MadeSpec MadeProofs MadeProps BehaveSpec BehaveProofs
  ThreadSpec ThreadModel ThreadProps LockedModel LockedProps ObjectSpec ObjectModel ObjectParts ObjectRecord ObjectWords ObjectProps
  WeakObjectModel EndSpec EndObject EndWeak.
Import ListNotations.
Open Scope string_scope.
Open Scope list_scope.

(** ** C92 *)
(** In one field, an activity makes at most twenty steps for each call it makes and each
    use of a guard, whatever the others do; letting go of the guards is among them. *)
Theorem C92_bounded : forall c fo ps dflt user l s h t i a,
  (forall f o, In (f, o) fo -> f_is_skipped f = false) ->
  map (fun x => part_of c (fst x) (snd x)) fo = map Some ps ->
  (forall f o ms k, In (f, o) fo -> field_methods c f = GOk ms -> In k (map m_kind ms) -> works c f k = true) ->
  object_run dflt user ps l = Some (s, h, t) ->
  count (fun x => negb (asks_more x) && same (whose x) (i, a)) l <= 20 * count (fun x => asks_more x && same (whose x) (i, a)) l.
Proof. exact (fun c fo ps dflt user l s h t i a Sk Po Wk => object_bounded c fo ps dflt user Sk Po Wk l s h t i a). Qed.
Print Assumptions C92_bounded.
(** If nothing new is asked, what goes on comes to an end, whatever the schedule. *)
Theorem C92_finite : forall c fo ps dflt user l l' s h t,
  (forall f o, In (f, o) fo -> f_is_skipped f = false) ->
  map (fun x => part_of c (fst x) (snd x)) fo = map Some ps ->
  (forall f o ms k, In (f, o) fo -> field_methods c f = GOk ms -> In k (map m_kind ms) -> works c f k = true) ->
  object_run dflt user ps (l ++ l') = Some (s, h, t) -> (forall x, In x l' -> asks_more x = false) ->
  List.length l' + count (fun x => negb (asks_more x)) l <= 20 * count asks_more l.
Proof.
  intros c fo ps dflt user l l' s h t Sk Po Wk H N. pose proof (object_finite c fo ps dflt user Sk Po Wk _ _ _ _ H) as B.
  rewrite !count_app, (count_none asks_more l' N), (count_all (fun x => negb (asks_more x)) l') in B; [lia|].
  intros x I. rewrite (N x I). reflexivity.
Qed.
Print Assumptions C92_finite.
(** And when it has come to an end, no call is in progress and no guard is kept, if builders
    call methods only of fields below their own. *)
Theorem C92_over : forall c fo ps dflt user (rank : nat -> nat) out l s h t,
  (forall f o, In (f, o) fo -> f_is_skipped f = false) ->
  map (fun x => part_of c (fst x) (snd x)) fo = map Some ps ->
  (forall f o ms k, In (f, o) fo -> field_methods c f = GOk ms -> In k (map m_kind ms) -> works c f k = true) ->
  object_run dflt user ps l = Some (s, h, t) ->
  (forall i b j a k n, In (OInner i b j a k n) l -> rank j < rank i) ->
  (forall x, winding_down out x -> object_run dflt user ps (l ++ [x]) = None) -> all_over s.
Proof. exact (fun c fo ps dflt user rank out l s h t Sk Po Wk => object_over c fo ps dflt user Sk Po Wk rank out l s h t). Qed.
Print Assumptions C92_over.
(** So all calls can end, however the builders end. *)
Theorem C92_ends : forall c fo ps dflt user (rank : nat -> nat) out l s h t,
  (forall f o, In (f, o) fo -> f_is_skipped f = false) ->
  map (fun x => part_of c (fst x) (snd x)) fo = map Some ps ->
  (forall f o ms k, In (f, o) fo -> field_methods c f = GOk ms -> In k (map m_kind ms) -> works c f k = true) ->
  object_run dflt user ps l = Some (s, h, t) ->
  (forall i b j a k n, In (OInner i b j a k n) l -> rank j < rank i) ->
  exists l' s' h' t', Forall (winding_down out) l' /\ object_run dflt user ps (l ++ l') = Some (s', h', t') /\ all_over s'.
Proof. exact (fun c fo ps dflt user rank out l s h t Sk Po Wk => object_ends c fo ps dflt user Sk Po Wk rank out l s h t). Qed.
Print Assumptions C92_ends.
(** On weak memory. *)
Theorem C92_weak : forall c fo ps dflt user l w h t,
  (forall f o, In (f, o) fo -> f_is_skipped f = false) ->
  map (fun x => part_of c (fst x) (snd x)) fo = map Some ps ->
  (forall f o ms k, In (f, o) fo -> field_methods c f = GOk ms -> In k (map m_kind ms) -> works c f k = true) ->
  weak_object_run dflt user ps l = Some (w, h, t) ->
  (forall i a, count (fun x => negb (asks_more x) && same (whose x) (i, a)) (plain_acts l) <=
    20 * count (fun x => asks_more x && same (whose x) (i, a)) (plain_acts l)) /\
  forall (rank : nat -> nat) out, (forall i b j a k n, In (WInner i b j a k n) l -> rank j < rank i) ->
  exists l' w' h' t', Forall (winding_down out) (plain_acts l') /\
    weak_object_run dflt user ps (l ++ l') = Some (w', h', t') /\ all_over (shadow w').
Proof.
  intros c fo ps dflt user l w h t Sk Po Wk H. split.
  - intros i a. exact (weak_bounded c fo ps dflt user Sk Po Wk l w h t i a H).
  - intros rank out. exact (weak_ends c fo ps dflt user Sk Po Wk rank out l w h t H).
Qed.
Print Assumptions C92_weak.
(** From the words of the attributes. *)
Theorem C92_written : forall ft c ss all its ps dflt user (rank : nat -> nat) l s h t,
  struct_as ft ss (c_args c) -> Forall2 (read_as ft) all (c_input_fields c) ->
  (forall x q f o, In (x, q, f, o) its ->
    read_as ft x f /\ ~ skipped x /\ facts_told ss all x q /\ forall k, method_for ss all x k -> sound_call q k = true) ->
  map (fun x => part_of c (fst x) (snd x)) (map (fun e => let '(x, q, f, o) := e in (f, o)) its) = map Some ps ->
  object_run dflt user ps l = Some (s, h, t) ->
  count (fun x => negb (asks_more x)) l <= 20 * count asks_more l /\
  ((forall i b j a k n, In (OInner i b j a k n) l -> rank j < rank i) -> forall out,
   exists l' s' h' t', Forall (winding_down out) l' /\ object_run dflt user ps (l ++ l') = Some (s', h', t') /\ all_over s').
Proof.
  exact (fun ft c ss all its ps dflt user rank l s h t HS HF Told => w_ends ft c ss all HS HF its Told ps dflt user rank l s h t).
Qed.
Print Assumptions C92_written.

(** Builders that call each other (ObjectProps.v) may never end, and then nothing does. *)
Theorem C92_cycle_refuted : let c := ctx_of sync_s (map fst two) in
  (forall f o, In (f, o) two -> f_is_skipped f = false) /\
  map (fun x => part_of c (fst x) (snd x)) two = map Some two_parts /\
  (forall f o ms k, In (f, o) two -> field_methods c f = GOk ms -> In k (map m_kind ms) -> works c f k = true) /\
  exists s h t, object_run 0 (fun _ => 0) two_parts embrace = Some (s, h, t) /\ ~ all_over s /\
    forall out x, winding_down out x -> object_run 0 (fun _ => 0) two_parts (embrace ++ [x]) = None.
Proof.
  cbn zeta. split; [intros f o [E|[E|[]]]; injection E as <- <-; reflexivity|].
  split; [vm_compute; reflexivity|]. split.
  { apply all_work. vm_compute. reflexivity. }
  eexists. eexists. eexists. split; [vm_compute; reflexivity|]. split.
  - intros O. specialize (O 0 _ 1 eq_refl). vm_compute in O. discriminate O.
  - intros out x [W _]. destruct x as [j y|i b j a k n]; [|discriminate W].
    destruct j as [|[|j]]; [| |destruct j; destruct y; vm_compute; reflexivity];
      (destruct y as [a k n|a [| |]|a|a|a o|a]; try discriminate W; destruct a as [|[|[|a]]]; try destruct o; vm_compute; reflexivity).
Qed.
Print Assumptions C92_cycle_refuted.

(** ** Cases *)
(** The getter of a lazy field that copies the value makes all of the twenty steps. *)
Definition copied : list (field * option nat) := [(put_f_copy (Some true) (lazy_get fa), None)].
Definition copied_parts : list part := parts_in (ctx_of sync_s (map fst copied)) copied.
Definition long_way : list oact :=
  [OAct 0 (MInvoke 1 KAccessor 0); OAct 0 (MGo 1)] ++ steps_of 0 5 1 ++ [OAct 0 (MBuilt 1 (BOk 3))] ++ steps_of 0 6 1 ++
  gos 0 1 1 ++ steps_of 0 2 1 ++ gos 0 1 1 ++ steps_of 0 2 1 ++ gos 0 1 1.
Example C92_case : let c := ctx_of sync_s (map fst copied) in
  (forall f o, In (f, o) copied -> f_is_skipped f = false) /\
  map (fun x => part_of c (fst x) (snd x)) copied = map Some copied_parts /\
  (forall f o ms k, In (f, o) copied -> field_methods c f = GOk ms -> In k (map m_kind ms) -> works c f k = true) /\
  (exists s h t, object_run 0 (fun _ => 0) copied_parts long_way = Some (s, h, t) /\ In (0, HRet 1 (ORet (AnVal 3))) h) /\
  count (fun x => negb (asks_more x)) long_way = 20 /\ count asks_more long_way = 1.
Proof.
  cbn zeta. split; [intros f o [E|[]]; injection E as <- <-; reflexivity|].
  split; [vm_compute; reflexivity|]. split. { apply all_work. vm_compute. reflexivity. }
  split; [|split; reflexivity]. eexists. eexists. eexists. split; [vm_compute; reflexivity|vm_compute; auto].
Qed.
(** The object of C89_case: in the middle of it a builder waits for a guard to be let go of;
    a schedule that asks nothing more and leaves nothing in progress. *)
Example C92_mixed_case : let c := ctx_of sync_s (map fst mixed) in
  (exists s h t, object_run 0 (fun _ => 0) mixed_parts errand = Some (s, h, t) /\ ~ all_over s) /\
  (forall i b j a k n, In (OInner i b j a k n) errand -> 3 - j < 3 - i) /\
  let rest := gos 2 2 1 ++ [OAct 1 (MUse 1 LetGo)] ++ gos 1 2 1 ++ [OAct 0 (MBuilt 1 BPanic)] ++ gos 1 4 2 ++ steps_of 0 2 1 ++ gos 0 1 1 in
  Forall (winding_down (fun _ _ => BPanic)) rest /\
  exists s h t, object_run 0 (fun _ => 0) mixed_parts (errand ++ rest) = Some (s, h, t) /\ In (0, HRet 1 OPanic) h /\
    forallb (fun fs => forallb (fun a => match place_of fs a with Free => true | _ => false end) [1; 2; 3]) (o_fields s) = true.
Proof.
  cbn zeta. split.
  { eexists. eexists. eexists. split; [vm_compute; reflexivity|]. intros O. specialize (O 0 _ 1 eq_refl). vm_compute in O. discriminate O. }
  split.
  { intros i b j a k n I. cbn in I.
    repeat (destruct I as [E|I]; [first [discriminate E|injection E as <- <- <- <- <- <-; cbn; lia]|]). destruct I. }
  split. { repeat constructor. }
  eexists. eexists. eexists. split; [vm_compute; reflexivity|]. vm_compute. auto 30.
Qed.
(** The object of C89_written_case. *)
Example C92_written_case :
  exists s h t, object_run 0 (fun _ => 0) v_parts v_plan = Some (s, h, t) /\ 0 < count asks_more v_plan /\
    forall i b j a k n, In (OInner i b j a k n) v_plan -> 2 - j < 2 - i.
Proof.
  eexists. eexists. eexists. split; [vm_compute; reflexivity|]. split; [vm_compute; lia|].
  intros i b j a k n I. cbn in I.
  repeat (destruct I as [E|I]; [first [discriminate E|injection E as <- <- <- <- <- <-; cbn; lia]|]). destruct I.
Qed.
