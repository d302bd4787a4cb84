(** Property C91: a shared object on memory that is not sequentially consistent. *)
From Coq Require Import List Bool String Arith Lia.
From Verif Require Import ProxyTypes ArgsModel CtxModel ArgsSpec TokenSpec ParseInput ParseModel ParseSpec ParseForms GrammarSpec GrammarProps
  ArgsFixtures ArgsProps CodegenProps GuardCell RustAst CommonGen StructGen CodegenSpec FieldSpec FieldRun FieldProps
  WrittenSpec WrittenProofs WrittenNames WrittenProps SignSpec SignTypes SignMethods SignProps MadeSpec MadeProofs MadeProps BehaveSpec BehaveProofs
  ThreadSpec ThreadModel ThreadProps LockedModel LockedProps ObjectSpec ObjectModel ObjectParts ObjectRecord ObjectWords ObjectProps
  WeakObjectSpec WeakObjectModel WeakObjectProofs WeakObjectWords WeakObjectFresh.
Import ListNotations.
Open Scope string_scope.
Open Scope list_scope.

(** ** C91 *)
(** Whatever the schedule, whatever write each load gets among those it may get, and
    whatever the activities of one field learn from those of another, there is no data race
    in any field. *)
Theorem C91_no_race : forall c fo ps dflt user l w h t,
  (forall f o, In (f, o) fo -> f_is_skipped f = false) ->
  map (fun x => part_of c (fst x) (snd x)) fo = map Some ps ->
  (forall f o ms k, In (f, o) fo -> field_methods c f = GOk ms -> In k (map m_kind ms) -> works c f k = true) ->
  weak_object_run dflt user ps l = Some (w, h, t) ->
  forall g, In g (w_fields w) -> wraced g = false.
Proof. exact (fun c fo ps dflt user l w h t Sk Po Wk => weak_no_race c fo ps dflt user Sk Po Wk l w h t). Qed.
Print Assumptions C91_no_race.
(** What the users see is what users of a record of cells can see, but for what predicates
    of lazy fields say. *)
Theorem C91_record : forall c fo ps bld dflt user l w h t,
  (forall f o, In (f, o) fo -> f_is_skipped f = false) ->
  map (fun x => part_of c (fst x) (snd x)) fo = map Some ps ->
  (forall f o ms k, In (f, o) fo -> field_methods c f = GOk ms -> In k (map m_kind ms) -> works c f k = true) ->
  weak_object_run dflt user ps l = Some (w, h, t) -> (forall i, oracle (bld i) (at_field i t)) ->
  let roles := map (fun x => mk_role (view_of c (fst x)) (is_async c (fst x)) (snd x)) fo in
  exists h' ws, Forall2 (seen_as roles) h h' /\ rruns bld dflt roles (rstart roles) h' ws.
Proof. exact (fun c fo ps bld dflt user l w h t Sk Po Wk => weak_history c fo ps dflt user Sk Po Wk bld l w h t). Qed.
Print Assumptions C91_record.
(** Nothing else differs: unless such a predicate has answered, the record explains exactly
    what was seen. *)
Theorem C91_exact : forall c fo ps bld dflt user l w h t,
  (forall f o, In (f, o) fo -> f_is_skipped f = false) ->
  map (fun x => part_of c (fst x) (snd x)) fo = map Some ps ->
  (forall f o ms k, In (f, o) fo -> field_methods c f = GOk ms -> In k (map m_kind ms) -> works c f k = true) ->
  weak_object_run dflt user ps l = Some (w, h, t) -> (forall i, oracle (bld i) (at_field i t)) ->
  let roles := map (fun x => mk_role (view_of c (fst x)) (is_async c (fst x)) (snd x)) fo in
  (forall i a b r fl, In (i, HRet a (ORet (AnBool b))) h -> nth_error roles i = Some r -> v_shape (r_view r) <> Lazy fl) ->
  exists ws, rruns bld dflt roles (rstart roles) h ws.
Proof. exact (fun c fo ps bld dflt user l w h t Sk Po Wk => weak_exact c fo ps dflt user Sk Po Wk bld l w h t). Qed.
Print Assumptions C91_exact.
(** Weak memory stops nobody: as C89_moves, some write being there for every load and some
    place for every store. *)
Theorem C91_moves : forall c fo ps dflt user (rank : nat -> nat) l w h t i a,
  (forall f o, In (f, o) fo -> f_is_skipped f = false) ->
  map (fun x => part_of c (fst x) (snd x)) fo = map Some ps ->
  (forall f o ms k, In (f, o) fo -> field_methods c f = GOk ms -> In k (map m_kind ms) -> works c f k = true) ->
  weak_object_run dflt user ps l = Some (w, h, t) ->
  (forall i b j a k n, In (WInner i b j a k n) l -> rank j < rank i) ->
  acting (map bare (w_fields w)) (i, a) = true ->
  let next x := weak_object_run dflt user ps (l ++ [x]) in
  (exists j b p q, next (WAct j (MGo b) p q) <> None \/ next (WAct j (MStep b) p q) <> None) \/
  (exists j b, forall out, exists p q, next (WAct j (MBuilt b out) p q) <> None) \/
  (exists j g b gd, nth_error (w_fields w) j = Some g /\ place_of (bare g) b = Keeps gd).
Proof. exact (fun c fo ps dflt user rank l w h t i a Sk Po Wk => weak_moves c fo ps dflt user Sk Po Wk rank l w h t i a). Qed.
Print Assumptions C91_moves.
(** The same from the words of the attributes. *)
Theorem C91_written : forall ft c ss all its ps bld dflt user l w h t,
  struct_as ft ss (c_args c) -> Forall2 (read_as ft) all (c_input_fields c) ->
  (forall x q f o, In (x, q, f, o) its ->
    read_as ft x f /\ ~ skipped x /\ facts_told ss all x q /\ forall k, method_for ss all x k -> sound_call q k = true) ->
  map (fun x => part_of c (fst x) (snd x)) (map (fun e => let '(x, q, f, o) := e in (f, o)) its) = map Some ps ->
  weak_object_run dflt user ps l = Some (w, h, t) ->
  (forall g, In g (w_fields w) -> wraced g = false) /\
  ((forall i, oracle (bld i) (at_field i t)) ->
   let roles := map (fun e => let '(x, q, f, o) := e in mk_role (told_view q) (q_async q) o) its in
   exists h' ws, Forall2 (seen_as roles) h h' /\ rruns bld dflt roles (rstart roles) h' ws).
Proof.
  exact (fun ft c ss all its ps bld dflt user l w h t HS HF Told => w_weak_object ft c ss all HS HF its Told ps bld dflt user l w h t).
Qed.
Print Assumptions C91_written.

(** Knowing an event is knowing that one event: the numbers of accesses and of writes are
    different, in one field and in all of them ([0]: the object was made), and nobody knows
    what has not happened. *)
Theorem C91_events : forall dflt user ps l w h t, weak_object_run dflt user ps l = Some (w, h, t) ->
  (forall g, In g (w_fields w) -> NoDup (flag_writes g) /\ NoDup (value_writes g) /\ NoDup (accesses g) /\
    (forall m, In m (flag_writes g ++ value_writes g ++ accesses g) -> m < w_next w) /\ forall a m, In m (wknows g a) -> m < w_next w) /\
  (forall i j g g' m, nth_error (w_fields w) i = Some g -> nth_error (w_fields w) j = Some g' -> i <> j ->
    In m (flag_writes g ++ value_writes g ++ accesses g) -> In m (flag_writes g' ++ value_writes g' ++ accesses g') -> m = 0).
Proof. exact events_apart. Qed.
Print Assumptions C91_events.

(** ** Cases *)
(** A lazy field with a predicate, and a locked field through which its users can signal. *)
Definition signal : list (field * option nat) :=
  [(put_f_predicate h_on (lazy_get fa), None);
   (put_f_lock (Some true) (put_f_reader h_on (put_f_setter set_on (put_f_accessor get_copy fb))), Some 4)].
Definition signal_parts : list part := parts_in (ctx_of sync_s (map fst signal)) signal.
Definition go (i : nat) (a : aid) (p q : nat) : wact := WAct i (MGo a) p q.
Definition on (i : nat) (a : aid) (p q : nat) : wact := WAct i (MStep a) p q.
Definition built_by_1 : list wact :=
  [WAct 0 (MInvoke 1 KAccessor 0) 0 0; go 0 1 0 0] ++ repeat (on 0 1 0 0) 5 ++
  [WAct 0 (MBuilt 1 (BOk 10)) 0 0; on 0 1 0 1; on 0 1 0 1; on 0 1 0 0; on 0 1 0 0; on 0 1 1 1; on 0 1 0 0; go 0 1 0 0].
(** The predicate loads the write [p] of the flag. *)
Definition asked_by_2 (p : nat) : list wact :=
  [WAct 0 (MInvoke 2 KPredicate 0) 0 0; go 0 2 0 0; on 0 2 p 0; on 0 2 p 0; go 0 2 0 0].
Definition signalled : list wact :=
  [WTells 0 1 1 1; WAct 1 (MInvoke 1 KSetter 5) 0 0; go 1 1 0 0; go 1 1 0 1; go 1 1 0 0; go 1 1 0 0;
   WAct 1 (MInvoke 2 KAccessor 0) 0 0; go 1 2 1 1; go 1 2 1 1; go 1 2 0 0; go 1 2 0 0; WTells 1 2 0 2].
Lemma signal_meets : let c := ctx_of sync_s (map fst signal) in
  (forall f o, In (f, o) signal -> f_is_skipped f = false) /\
  map (fun x => part_of c (fst x) (snd x)) signal = map Some signal_parts /\
  (forall f o ms k, In (f, o) signal -> field_methods c f = GOk ms -> In k (map m_kind ms) -> works c f k = true).
Proof.
  cbn zeta. split. { intros f o [E|[E|[]]]; injection E as <- <-; reflexivity. }
  split; [vm_compute; reflexivity|]. apply all_work. vm_compute. reflexivity.
Qed.
(** Who has been told through the other field does not get the stale answer. *)
Example C91_case : let c := ctx_of sync_s (map fst signal) in
  ((forall f o, In (f, o) signal -> f_is_skipped f = false) /\
   map (fun x => part_of c (fst x) (snd x)) signal = map Some signal_parts /\
   (forall f o ms k, In (f, o) signal -> field_methods c f = GOk ms -> In k (map m_kind ms) -> works c f k = true)) /\
  (exists w t, weak_object_run 0 (fun _ => 0) signal_parts (built_by_1 ++ asked_by_2 0) = Some (w,
    [(0, HCall 1 KAccessor 0); (0, HRet 1 (ORet (AnVal 10))); (0, HCall 2 KPredicate 0); (0, HRet 2 (ORet (AnBool false)))], t) /\
    at_field 1 t = [] /\ ends (at_field 0 t) = [BOk 10]) /\
  weak_object_run 0 (fun _ => 0) signal_parts (built_by_1 ++ signalled ++ asked_by_2 0) = None /\
  (exists w t, weak_object_run 0 (fun _ => 0) signal_parts (built_by_1 ++ signalled ++ asked_by_2 1) = Some (w,
    [(0, HCall 1 KAccessor 0); (0, HRet 1 (ORet (AnVal 10)));
     (1, HCall 1 KSetter 5); (1, HRet 1 (ORet (AnVal 4))); (1, HCall 2 KAccessor 0); (1, HRet 2 (ORet (AnVal 5)));
     (0, HCall 2 KPredicate 0); (0, HRet 2 (ORet (AnBool true)))], t) /\ map wraced (w_fields w) = [false; false]) /\
  (* without the predicate: C91_exact *)
  (exists w h t, weak_object_run 0 (fun _ => 0) signal_parts (built_by_1 ++ signalled) = Some (w, h, t) /\
    In (1, HRet 2 (ORet (AnVal 5))) h /\ forall i a b, ~ In (i, HRet a (ORet (AnBool b))) h) /\
  (* while the builder runs: C91_moves *)
  (exists w h t, weak_object_run 0 (fun _ => 0) signal_parts (firstn 7 built_by_1) = Some (w, h, t) /\
    acting (map bare (w_fields w)) (0, 1) = true).
Proof.
  cbn zeta. split; [exact signal_meets|]. split. { eexists. eexists. split; [vm_compute; reflexivity|]. vm_compute. auto. }
  split; [vm_compute; reflexivity|]. split. { eexists. eexists. split; vm_compute; reflexivity. }
  split. { eexists. eexists. eexists. split; [vm_compute; reflexivity|]. split; [vm_compute; auto 10|].
    intros i a b I. repeat (destruct I as [E|I]; [discriminate E|]). destruct I. }
  eexists. eexists. eexists. split; vm_compute; reflexivity.
Qed.
Example C91_events_case : exists w h t, weak_object_run 0 (fun _ => 0) signal_parts (built_by_1 ++ signalled) = Some (w, h, t) /\
  map flag_writes (w_fields w) = [[0; 10]; []] /\ map value_writes (w_fields w) = [[0; 9]; [0; 18]] /\
  map accesses (w_fields w) = [[13; 9; 6; 4]; [23; 22; 18; 17; 0]] /\ w_next w = 26.
Proof. eexists. eexists. eexists. split; [vm_compute; reflexivity|]. vm_compute. auto. Qed.
(** The answers of predicates must be left out: no record gives these, whatever its builder
    does. *)
Theorem C91_predicate_refuted : let c := ctx_of sync_s (map fst signal) in
  let roles := map (fun x => mk_role (view_of c (fst x)) (is_async c (fst x)) (snd x)) signal in
  exists w h t, weak_object_run 0 (fun _ => 0) signal_parts (built_by_1 ++ asked_by_2 0) = Some (w, h, t) /\
    forall bld ws, ~ rruns bld 0 roles (rstart roles) h ws.
Proof.
  cbn zeta. eexists. eexists. eexists. split; [vm_compute; reflexivity|]. intros bld ws H.
  apply (fun A B => no_stale bld 0 _ _ 1 0 10 2 0 ws A B H); vm_compute; reflexivity.
Qed.
Print Assumptions C91_predicate_refuted.
(** [#[fxstruct(sync)]] with the fields of C89_written_case. *)
Definition v_weak : list wact :=
  [WAct 0 (MInvoke 1 KAccessor 0) 0 0; go 0 1 0 0] ++ repeat (on 0 1 0 0) 5 ++
  [WInner 0 1 1 1 KAccessor 0; WTells 0 1 1 1; go 1 1 0 0; go 1 1 0 0; go 1 1 0 0; go 1 1 0 0; WTells 1 1 0 1] ++
  [WAct 0 (MBuilt 1 (BOk 10)) 0 0; on 0 1 0 1; on 0 1 0 1; on 0 1 0 0; on 0 1 0 0; on 0 1 1 1; on 0 1 0 0; go 0 1 0 0].
Example C91_written_case :
  struct_as every_feature (terminated u_struct) (c_args v_ctx) /\
  Forall2 (read_as every_feature) v_sources (c_input_fields v_ctx) /\
  (forall x q f o, In (x, q, f, o) v_items ->
    read_as every_feature x f /\ ~ skipped x /\ facts_told (terminated u_struct) v_sources x q /\
    forall k, method_for (terminated u_struct) v_sources x k -> sound_call q k = true) /\
  map (fun x => part_of v_ctx (fst x) (snd x)) (map (fun e => let '(x, q, f, o) := e in (f, o)) v_items) = map Some v_parts /\
  exists w h t, weak_object_run 0 (fun _ => 0) v_parts v_weak = Some (w, h, t) /\
    In (1, HRet 1 (ORet (AnOpt (Some 4)))) h /\ In (0, HRet 1 (ORet (AnVal 10))) h.
Proof.
  destruct C89_written_case as (A & B & C & D & _). split; [exact A|]. split; [exact B|]. split; [exact C|]. split; [exact D|].
  eexists. eexists. eexists. split; [vm_compute; reflexivity|]. split; vm_compute; auto 30.
Qed.
(** Races would be seen: a locked field written behind the back of the lock, a field without
    a lock read by who does not know how it was made. *)
Example C91_case_races :
  let unknown (b : wlbox) := mk_wlbox (wl_core b) (wl_values b) (fun _ => []) [] [] (wl_log b) (wl_racy b) in
  let look n a b := match wlstep n 0 0 b a (LAcq false) with Some (b', _) => b' | None => b end in
  let swap n a b := match wlstep n 0 1 (mk_wlbox (mk_lbox None [] (Some a)) (wl_values b) (wl_knows b) (wl_kw b) (wl_kr b) (wl_log b) (wl_racy b)) a (LSwap (Some 7)) with Some (b', _) => b' | None => b end in
  wl_racy (look 1 1 (lock_new (Some 4))) = false /\ wl_racy (look 1 1 (unknown (lock_new (Some 4)))) = true /\
  wl_racy (swap 1 1 (lock_new (Some 4))) = false /\ wl_racy (swap 2 2 (look 1 1 (lock_new (Some 4)))) = true /\
  (exists p, nth_error mixed_parts 2 = Some p /\
    let ask w := match wopen_step 0 (fun _ => 0) p 1 0 w (fun _ => TIdle) (MInvoke 3 KAccessor 0) with
                 | Some (w', th, _) => match wopen_step 0 (fun _ => 0) p 2 0 w' th (MGo 3) with Some (w2, _, _) => Some (wn_racy w2) | None => None end
                 | None => None
                 end in
    ask (open_new (p_value p)) = Some false /\ ask (mk_wopen (0, p_value p) (fun _ => []) [(0, true)] false) = Some true).
Proof.
  cbn zeta. split; [vm_compute; reflexivity|]. split; [vm_compute; reflexivity|]. split; [vm_compute; reflexivity|].
  split; [vm_compute; reflexivity|]. eexists. split; [vm_compute; reflexivity|]. split; vm_compute; reflexivity.
Qed.
