(** Independent description of how the arguments of [#[fxstruct(...)]] and
    [#[fieldx(...)]] are written.  The records describing arguments are those of
    ArgsModel.v; nothing of the parser is used. *)
From Coq Require Import List Bool String Ascii Permutation.
From Verif Require Import ArgsModel ArgsSpec TokenSpec ParseInput.
Import ListNotations.
Open Scope string_scope.
Open Scope list_scope.

(** ** Lists of arguments *)
Definition comma : tok := TPunct ",".
(** One argument: some tokens, no comma outside its parentheses. *)
Definition one_argument (c : list tok) : Prop := c <> [] /\ ~ In comma c.
(** [arguments cs ts]: [ts] is the arguments [cs] with a comma between each two and maybe
    one at the end. *)
Inductive arguments : list (list tok) -> list tok -> Prop :=
| args_none : arguments [] []
| args_last : forall a, one_argument a -> arguments [a] a
| args_more : forall a l ts, one_argument a -> arguments l ts -> arguments (a :: l) (a ++ comma :: ts).

(** [argument_for n c]: the argument [c] is for the name [n]: the name, maybe with
    leading colons, and what follows. *)
Inductive argument_for (n : string) : list tok -> list tok -> Prop :=
| for_plain : forall r, argument_for n (TIdent n :: r) r
| for_abs : forall r, argument_for n (TPunct ":" :: TPunct ":" :: TIdent n :: r) r.

(** The arguments of all the attributes of a field; the bare one has none. *)
Inductive gathered : list fattr -> list (list tok) -> Prop :=
| ga_nil : gathered [] []
| ga_word : forall l cs, gathered l cs -> gathered (FWord :: l) cs
| ga_list : forall ts l cs ds, arguments cs ts -> gathered l ds -> gathered (FList ts :: l) (cs ++ ds).

(** ** Keywords *)
(** "boolean-like, only accepts off" (fieldx_derive/src/lib.rs:42): the name, the name
    with nothing in parentheses, the name with off in parentheses. *)
Inductive keyword_form (n : string) : bool -> list tok -> Prop :=
| kw_word : forall c, argument_for n c [] -> keyword_form n true c
| kw_empty : forall c d, d <> DNone -> argument_for n c [TGroup d []] -> keyword_form n true c
| kw_off : forall c d o ts, d <> DNone -> argument_for n c [TGroup d ts] ->
    arguments [o] ts -> argument_for "off" o [] -> keyword_form n false c.

(** ** Order *)
(** Arguments whose sub-arguments are not a set of options: their order, or the lack of a
    comma after them, tells something. *)
Definition ordered : list string :=
  ["attributes"; "attributes_fn"; "attributes_impl"; "error"; "default"; "forward_attrs"; "mode";
   "post_build"].
(** [shuffled ts ts']: the same arguments in another order, the same again for their
    sub-arguments at any depth, whatever the kind of parentheses. *)
Inductive shuffled : list tok -> list tok -> Prop :=
| shuffle : forall cs ds cs' ts ts',
    arguments cs ts -> shuffled_each cs ds -> Permutation ds cs' -> arguments cs' ts' ->
    shuffled ts ts'
with shuffled_each : list (list tok) -> list (list tok) -> Prop :=
| each_nil : shuffled_each [] []
| each_same : forall c cs ds, shuffled_each cs ds -> shuffled_each (c :: cs) (c :: ds)
| each_sub : forall n d d' ts ts' cs ds,
    ~ In n ordered -> d <> DNone -> d' <> DNone ->
    shuffled ts ts' -> shuffled_each cs ds ->
    shuffled_each ([TIdent n; TGroup d ts] :: cs) ([TIdent n; TGroup d' ts'] :: ds).

(** ** Writing arguments *)
Definition quoted (s : string) : string := ("""" ++ s ++ """")%string.
(** Words of Rust that are no names. *)
Definition reserved : list string :=
  ["abstract"; "as"; "async"; "await"; "become"; "box"; "break"; "const"; "continue"; "do"; "dyn";
   "else"; "enum"; "extern"; "false"; "final"; "fn"; "for"; "if"; "impl"; "in"; "let"; "loop";
   "macro"; "match"; "mod"; "move"; "mut"; "override"; "priv"; "pub"; "ref"; "return"; "static";
   "struct"; "trait"; "true"; "try"; "type"; "typeof"; "unsafe"; "unsized"; "use"; "virtual";
   "where"; "while"; "yield"; "_"].
Definition name_ok (s : string) : Prop := ~ In s reserved.
Definition ident_name (s : string) : Prop := name_ok s /\ ~ In s ["super"; "self"; "Self"; "crate"].

Fixpoint joined (cs : list (list tok)) : list tok :=
  match cs with
  | [] => []
  | [c] => c
  | c :: r => c ++ comma :: joined r
  end.
Definition w_list (n : string) (cs : list (list tok)) : list tok := [TIdent n; TGroup DParen (joined cs)].
Definition w_opt {A} (w : string -> A -> list tok) (n : string) (o : option A) : list (list tok) :=
  match o with Some a => [w n a] | None => [] end.
Definition w_flag (n : string) (b : bool) : list (list tok) := if b then [[TIdent n]] else [].
Definition w_lit (s : string) : list tok := [TLit (quoted s)].
Definition w_lits (o : option string) : list (list tok) :=
  match o with Some s => [w_lit s] | None => [] end.
(** keyword, keyword(off) *)
Definition w_bool (n : string) (b : bool) : list tok :=
  if b then [TIdent n] else w_list n [[TIdent "off"]].
Definition w_str (n : string) (a : strarg) : list tok :=
  w_list n (w_flag "off" (sa_off a) ++ w_lits (sa_value a)).
(** public, public(crate), public(super), public(in_mod = "path") *)
Definition w_pub (n : string) (p : pubmode) : list tok :=
  match p with
  | PMAll => [TIdent n]
  | PMCrate => w_list n [[TIdent "crate"]]
  | PMSuper => w_list n [[TIdent "super"]]
  | PMInMod p => w_list n [[TIdent "in_mod"; TPunct "="; TLit (quoted p)]]
  | PMPrivate => []
  end.
(** attributes(a, b) *)
Definition w_words (n : string) (l : list string) : list tok := w_list n (map (fun a => [TIdent a]) l).
(** The name of a helper is a literal; only one that is off needs its own argument. *)
Definition plain_name (a : strarg) : bool := negb (sa_off a) && is_some (sa_value a).
Definition w_name (o : option strarg) : list (list tok) :=
  match o with
  | None => []
  | Some a => if plain_name a then w_lits (sa_value a) else [w_str "name" a]
  end.
Definition w_base (h : helper) : list (list tok) :=
  w_name (h_name h) ++ w_flag "off" (h_off h) ++ w_opt w_words "attributes_fn" (h_attributes_fn h)
  ++ w_opt w_pub "public" (h_public h) ++ w_opt w_bool "private" (h_private h).
Definition w_helper (n : string) (h : helper) : list tok := w_list n (w_base h).
Definition w_accessor (n : string) (a : accessor) : list tok :=
  w_list n (w_base (a_base a) ++ w_flag "clone" (a_clone a) ++ w_flag "copy" (a_copy a)
            ++ w_flag "as_ref" (a_as_ref a)).
Definition w_into (n : string) (b : bool) : list tok :=
  if b then [TIdent n] else [TIdent n; TPunct "="; TIdent "false"].
Definition w_setter (n : string) (a : setter) : list tok :=
  w_list n (w_base (st_base a) ++ w_opt w_into "into" (st_into a)).
Definition w_post (n : string) (o : option string) : list tok :=
  match o with None => [TIdent n] | Some i => w_list n [[TIdent i]] end.
Definition w_builder (n : string) (b : builder) : list tok :=
  w_list n (w_base (b_base b)
            ++ w_opt w_words "attributes" (b_attributes b)
            ++ w_opt w_words "attributes_impl" (b_attributes_impl b)
            ++ w_opt w_bool "into" (b_into b) ++ w_opt w_bool "required" (b_required b)
            ++ w_opt w_bool "opt_in" (b_opt_in b)
            ++ w_opt w_post "post_build" (b_post_build b)
            ++ w_opt w_words "error" (b_error b)).
Definition w_one (n : string) (s : string) : list tok := w_words n [s].
Definition w_fallible (n : string) (f : fallible) : list tok :=
  w_list n (w_flag "off" (fl_off f) ++ w_opt w_one "error" (fl_error f)).
Definition w_mode (n : string) (m : syncmode) : list tok :=
  w_one n match m with MSync => "sync" | MAsync => "async" | MPlain => "plain" end.
(** default, default(value), default(off, value); a value is a string or a name here. *)
Definition w_value (v : string) (str : bool) : list tok := [if str then TLit v else TIdent v].
Definition w_default (n : string) (d : defarg) : list tok :=
  match d_value d with
  | None => [TIdent n]
  | Some v => w_list n (w_flag "off" (d_off d) ++ [w_value v (d_is_str d)])
  end.
Definition w_shadow (o : option strarg) : list (list tok) :=
  match o with
  | None => []
  | Some a => if plain_name a then w_lits (sa_value a) else [w_str "shadow_name" a]
  end.
Definition w_serde (n : string) (w : serde) : list tok :=
  w_list n (w_shadow (se_shadow_name w) ++ w_flag "off" (se_off w) ++ w_opt w_pub "public" (se_public w)
            ++ w_opt w_bool "private" (se_private w) ++ w_opt w_words "attributes" (se_attributes w)
            ++ w_opt w_bool "serialize" (se_serialize w) ++ w_opt w_bool "deserialize" (se_deserialize w)
            ++ w_opt w_words "forward_attrs" (se_forward_attrs w)
            ++ w_opt w_default "default" (se_default w)).
Definition w_struct (s : sargs) : list (list tok) :=
  w_opt w_mode "mode" (s_mode s) ++ w_opt w_bool "sync" (s_mode_sync s)
  ++ w_opt w_bool "r#async" (s_mode_async s) ++ w_opt w_builder "builder" (s_builder s)
  ++ w_opt w_bool "into" (s_into s) ++ w_opt w_bool "no_new" (s_no_new s)
  ++ w_opt w_bool "default" (s_default s) ++ w_opt w_helper "rc" (s_rc s)
  ++ w_opt w_words "attributes" (s_attributes s)
  ++ w_opt w_words "attributes_impl" (s_attributes_impl s)
  ++ w_opt w_fallible "fallible" (s_fallible s) ++ w_opt w_helper "lazy" (s_lazy s)
  ++ w_opt w_accessor "get" (s_accessor s) ++ w_opt w_helper "get_mut" (s_accessor_mut s)
  ++ w_opt w_setter "set" (s_setter s) ++ w_opt w_helper "reader" (s_reader s)
  ++ w_opt w_helper "writer" (s_writer s) ++ w_opt w_helper "clearer" (s_clearer s)
  ++ w_opt w_helper "predicate" (s_predicate s) ++ w_opt w_bool "optional" (s_optional s)
  ++ w_opt w_pub "public" (s_public s) ++ w_opt w_bool "private" (s_private s)
  ++ w_opt w_bool "clone" (s_clone s) ++ w_opt w_bool "copy" (s_copy s)
  ++ w_opt w_bool "lock" (s_lock s) ++ w_opt w_bool "inner_mut" (s_inner_mut s)
  ++ w_opt w_serde "serde" (s_serde s).
Definition w_field (f : field) : list (list tok) :=
  w_flag "skip" (f_skip f)
  ++ w_opt w_mode "mode" (f_mode f) ++ w_opt w_bool "sync" (f_mode_sync f)
  ++ w_opt w_bool "r#async" (f_mode_async f) ++ w_opt w_words "attributes_fn" (f_attributes_fn f)
  ++ w_opt w_fallible "fallible" (f_fallible f) ++ w_opt w_helper "lazy" (f_lazy f)
  ++ w_opt w_str "rename" (f_base_name f)
  ++ w_opt w_accessor "get" (f_accessor f) ++ w_opt w_helper "get_mut" (f_accessor_mut f)
  ++ w_opt w_setter "set" (f_setter f) ++ w_opt w_helper "reader" (f_reader f)
  ++ w_opt w_helper "writer" (f_writer f) ++ w_opt w_helper "clearer" (f_clearer f)
  ++ w_opt w_helper "predicate" (f_predicate f) ++ w_opt w_bool "optional" (f_optional f)
  ++ w_opt w_pub "public" (f_public f) ++ w_opt w_bool "private" (f_private f)
  ++ w_opt w_default "default" (f_default f) ++ w_opt w_builder "builder" (f_builder f)
  ++ w_opt w_bool "into" (f_into f) ++ w_opt w_bool "clone" (f_clone f)
  ++ w_opt w_bool "copy" (f_copy f) ++ w_opt w_bool "lock" (f_lock f)
  ++ w_opt w_bool "inner_mut" (f_inner_mut f) ++ w_opt w_serde "serde" (f_serde f).

(** What can be written: names are names, no value made up for something absent, and the
    combinations refused inside one argument do not occur. *)
Definition opt_all {A} (P : A -> Prop) (o : option A) : Prop :=
  match o with Some a => P a | None => True end.
Definition pub_ok (p : pubmode) : Prop := p <> PMPrivate.
Definition base_ok (h : helper) : Prop :=
  opt_all pub_ok (h_public h) /\ (h_public h = None \/ h_private h = None).
Definition accessor_ok (a : accessor) : Prop :=
  base_ok (a_base a) /\
  ~ (a_clone a = true /\ a_copy a = true) /\ ~ (a_clone a = true /\ a_as_ref a = true) /\
  ~ (a_copy a = true /\ a_as_ref a = true).
Definition error_ok (l : list string) : Prop := (List.length l = 1 \/ List.length l = 2) /\ Forall name_ok l.
Definition builder_ok (b : builder) : Prop :=
  base_ok (b_base b) /\ opt_all (opt_all ident_name) (b_post_build b) /\ opt_all error_ok (b_error b).
Definition field_level (b : builder) : Prop :=
  b_opt_in b = None /\ b_post_build b = None /\ b_error b = None.
Definition default_ok (d : defarg) : Prop :=
  match d_value d with
  | None => d_off d = false /\ d_is_str d = false
  | Some v => if d_is_str d then exists s, v = quoted s else name_ok v
  end.
Definition serde_ok (w : serde) : Prop :=
  opt_all pub_ok (se_public w) /\ ~ (se_public w <> None /\ se_private w = Some true) /\
  opt_all (Forall name_ok) (se_forward_attrs w) /\ opt_all default_ok (se_default w).
Definition fallible_ok (f : fallible) : Prop := opt_all name_ok (fl_error f).
Definition struct_ok (s : sargs) : Prop :=
  opt_all builder_ok (s_builder s) /\ opt_all base_ok (s_rc s) /\ opt_all fallible_ok (s_fallible s) /\
  opt_all base_ok (s_lazy s) /\ opt_all accessor_ok (s_accessor s) /\ opt_all base_ok (s_accessor_mut s) /\
  opt_all (fun a => base_ok (st_base a)) (s_setter s) /\ opt_all base_ok (s_reader s) /\
  opt_all base_ok (s_writer s) /\ opt_all base_ok (s_clearer s) /\ opt_all base_ok (s_predicate s) /\
  opt_all pub_ok (s_public s) /\ opt_all serde_ok (s_serde s).
Definition field_ok (f : field) : Prop :=
  opt_all fallible_ok (f_fallible f) /\ opt_all base_ok (f_lazy f) /\ opt_all accessor_ok (f_accessor f) /\
  opt_all base_ok (f_accessor_mut f) /\ opt_all (fun a => base_ok (st_base a)) (f_setter f) /\
  opt_all base_ok (f_reader f) /\ opt_all base_ok (f_writer f) /\ opt_all base_ok (f_clearer f) /\
  opt_all base_ok (f_predicate f) /\ opt_all pub_ok (f_public f) /\ opt_all default_ok (f_default f) /\
  opt_all (fun b => builder_ok b /\ field_level b) (f_builder f) /\ opt_all serde_ok (f_serde f).

(** ** The documented keywords *)
Definition struct_keywords : list (string * (sargs -> option bool)) :=
  [("sync", s_mode_sync); ("r#async", s_mode_async); ("into", s_into); ("no_new", s_no_new);
   ("default", s_default); ("optional", s_optional); ("private", s_private); ("clone", s_clone);
   ("copy", s_copy); ("lock", s_lock); ("inner_mut", s_inner_mut)].
Definition field_keywords : list (string * (field -> option bool)) :=
  [("sync", f_mode_sync); ("r#async", f_mode_async); ("optional", f_optional); ("private", f_private);
   ("into", f_into); ("clone", f_clone); ("copy", f_copy); ("lock", f_lock); ("inner_mut", f_inner_mut)].

(** ** Repetition *)
(** One name given two arguments, or two literals, in a list of arguments or inside one of
    them. *)
Inductive twice {A} (P : A -> Prop) : list A -> Prop :=
| twice_at : forall l1 a l2 b l3, P a -> P b -> twice P (l1 ++ a :: l2 ++ b :: l3).
Definition for_name (n : string) (c : list tok) : Prop := exists r, argument_for n c r.
Definition literal (c : list tok) : Prop := exists s, c = [TLit s].
Inductive repeated : list (list tok) -> Prop :=
| rep_name : forall cs n, twice (for_name n) cs -> repeated cs
| rep_literal : forall cs, twice literal cs -> repeated cs
| rep_inside : forall cs n c d g ds, In c cs -> ~ In n ordered ->
    argument_for n c [TGroup d g] -> arguments ds g -> repeated ds -> repeated cs.

(** ** Nothing in parentheses *)
(** Arguments that want something in their parentheses, or a bare word, or none. *)
Definition filled : list string :=
  ["attributes"; "attributes_fn"; "attributes_impl"; "public"; "rename"; "skip"].
Inductive emptied : list tok -> list tok -> Prop :=
| em_same : forall c, emptied c c
| em_add : forall n d, name_ok n -> ~ In n filled -> d <> DNone -> emptied [TIdent n] [TIdent n; TGroup d []].

(** ** Default values *)
(** Tokens as text; a space only where two words would run together. *)
Fixpoint text (t : tok) : string :=
  match t with
  | TIdent s | TPunct s | TLit s => s
  | TGroup d l =>
      let inside := (fix go (w : bool) (l : list tok) : string :=
        match l with
        | [] => ""
        | TIdent s :: r => ((if w then " " else "") ++ s ++ go true r)%string
        | TLit s :: r => ((if w then " " else "") ++ s ++ go true r)%string
        | x :: r => (text x ++ go false r)%string
        end) false l in
      match d with
      | DParen => ("(" ++ inside ++ ")")%string
      | DBrace => ("{" ++ inside ++ "}")%string
      | DBracket => ("[" ++ inside ++ "]")%string
      | DNone => inside
      end
  end.
Definition written (ts : list tok) : string := text (TGroup DNone ts).
(** Segments of a path. *)
Inductive path_of : list tok -> Prop :=
| po_one : forall s, name_ok s -> path_of [TIdent s]
| po_more : forall s l, name_ok s -> path_of l -> path_of (TIdent s :: TPunct ":" :: TPunct ":" :: l).
Inductive any_path : list tok -> Prop :=
| ap_rel : forall l, path_of l -> any_path l
| ap_abs : forall l, path_of l -> any_path (TPunct ":" :: TPunct ":" :: l).
Definition digit_first (s : string) : Prop :=
  exists c r, s = String c r /\ In c ["0"; "1"; "2"; "3"; "4"; "5"; "6"; "7"; "8"; "9"]%char.
(** "literal or path" (fieldx_aux/src/default_arg.rs:18-19), a call among them; the second
    argument tells whether it is a string. *)
Inductive value_form : list tok -> bool -> Prop :=
| vf_str : forall s, value_form [TLit (String """" s)] true
| vf_lit : forall s, (forall r, s <> String """" r) -> value_form [TLit s] false
| vf_neg : forall s, digit_first s -> value_form [TPunct "-"; TLit s] false
| vf_bool : forall s, s = "true" \/ s = "false" -> value_form [TIdent s] false
| vf_path : forall p, any_path p -> value_form p false
| vf_call : forall p d g, any_path p -> d <> DNone -> value_form (p ++ [TGroup d g]) false
| vf_assign : forall p v, any_path p -> v <> [] -> value_form (p ++ TPunct "=" :: v) false.
Inductive default_form : defarg -> list tok -> Prop :=
| df_word : forall c, argument_for "default" c [] -> default_form (mk_defarg false None false) c
| df_empty : forall c d, d <> DNone -> argument_for "default" c [TGroup d []] ->
    default_form (mk_defarg false None false) c
| df_value : forall c d g x s, d <> DNone -> argument_for "default" c [TGroup d g] ->
    arguments [x] g -> value_form x s -> default_form (mk_defarg false (Some (written x)) s) c
| df_off : forall c d g x s, d <> DNone -> argument_for "default" c [TGroup d g] ->
    arguments [[TIdent "off"]; x] g -> value_form x s ->
    default_form (mk_defarg true (Some (written x)) s) c.

(** ** What an accepted attribute may hold *)
(** No two arguments that exclude each other (the groups are those of ArgsSpec.v). *)
Definition harmonious (conflicts : list (string * list (argname * argname))) (en : argname -> bool) : Prop :=
  forall g ps, In (g, ps) conflicts -> ~ clash en ps.
(** The arguments that want a Cargo feature have it. *)
Definition allowed (ft : features) (sync async : option bool) (w : option serde) : Prop :=
  (sync = Some true -> ft_sync ft = true) /\ (async = Some true -> ft_async ft = true) /\
  (forall x, w = Some x -> se_off x = false -> ft_serde ft = true).
