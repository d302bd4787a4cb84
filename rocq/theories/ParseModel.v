(** Reading the arguments of [#[fxstruct(...)]] and [#[fieldx(...)]] from tokens:
    fieldx_aux/src/nesting_attr.rs and the argument types of fieldx_aux,
    fieldx_derive/src/fields.rs:17-173, util/args.rs:16-107, util.rs:97-111 and lib.rs:589-601.
    File names below are those of fieldx_aux/src unless said otherwise.

    The crates syn and darling are not in /repo; what they do is taken from their
    documentation: syn 2 for Meta, Path, Ident and literals; darling 0.20 for
    NestedMeta, the code derived for FromMeta (structs and enums), Flag, bool, PathList
    and syn::Path.  [None] is an error at compile time (a darling error or a panic of
    the macro).

    Simplifications: spans and messages are dropped; the two characters of [::] are not
    asked to be adjacent; an expression after [=] ends at the next comma; a string
    literal has no escapes and no raw form; error types are paths without generic
    arguments; the string given to in_mod is taken to be a path. *)
From Coq Require Import List Bool String Ascii.
From Verif Require Import ArgsModel TokenSpec TokenModel.
From Verif Require Export ParseInput.
Import ListNotations.
Open Scope string_scope.
Open Scope list_scope.

(** The operator [?], as in nesting_attr.rs:89. *)
Definition obind {A B} (o : option A) (f : A -> option B) : option B :=
  match o with Some a => f a | None => None end.
Notation "'get?' x := e 'in' k" := (obind e (fun x => k)) (at level 200, x binder, right associativity).
(** A check that may fail, as the ones before Ok in builder_helper.rs:99-121. *)
Definition ensure (b : bool) : option unit := if b then Some tt else None.

(** ** syn *)
(** syn::Path in the style of modules (Path::parse_mod_style), the path of a
    syn::Meta: nesting_attr.rs:22, 137. *)
Record path := mk_path { p_abs : bool; p_segs : list string }.
(** syn::Meta (nesting_attr.rs:22, 125-141); the tokens of a list and of a value are
    kept. *)
Inductive smeta :=
| SPath (p : path)
| SList (p : path) (d : delim) (ts : list tok)
| SValue (p : path) (ts : list tok).
(** darling::ast::NestedMeta (nesting_attr.rs:17, 94-100). *)
Inductive nmeta := NLit (s : string) | NMeta (m : smeta).

(** A match of a string against constants, as darling derives it for the names of
    fieldx_derive/src/util/args.rs:19-65. *)
Definition mem (s : string) (l : list string) : bool := existsb (String.eqb s) l.
(** Words that syn does not take for an identifier; super, self, Self and crate are
    allowed in paths; see lib.rs:155-157, where parse_any is used to have them all. *)
Definition keywords : list string :=
  ["abstract"; "as"; "async"; "await"; "become"; "box"; "break"; "const"; "continue"; "do"; "dyn";
   "else"; "enum"; "extern"; "false"; "final"; "fn"; "for"; "if"; "impl"; "in"; "let"; "loop";
   "macro"; "match"; "mod"; "move"; "mut"; "override"; "priv"; "pub"; "ref"; "return"; "static";
   "struct"; "trait"; "true"; "try"; "type"; "typeof"; "unsafe"; "unsized"; "use"; "virtual";
   "where"; "while"; "yield"; "_"].
(** A segment of a path of nesting_attr.rs:137. *)
Definition segment_ok (s : string) : bool := negb (mem s keywords).
(** Parse for syn::Ident, builder_helper.rs:51. *)
Definition ident_ok (s : string) : bool := segment_ok s && negb (mem s ["super"; "self"; "Self"; "crate"]).

(** Path::parse_mod_style after the leading colons: the segments and what follows;
    used where nesting_attr.rs:89 parses items. *)
Fixpoint parse_segs (ts : list tok) : option (list string * list tok) :=
  match ts with
  | TIdent s :: r =>
      if segment_ok s then
        match r with
        | TPunct a :: TPunct b :: r' =>
            if is_sep a b then
              match parse_segs r' with
              | Some (l, q) => Some (s :: l, q)
              | None => None
              end
            else Some ([s], r)
        | _ => Some ([s], r)
        end
      else None
  | _ => None
  end.
(** The same with the leading colons. *)
Definition parse_path (ts : list tok) : option (path * list tok) :=
  match ts with
  | TPunct a :: TPunct b :: r =>
      if is_sep a b then option_map (fun x => (mk_path true (fst x), snd x)) (parse_segs r) else None
  | _ => option_map (fun x => (mk_path false (fst x), snd x)) (parse_segs ts)
  end.
(** Parse for syn::Meta, an item of nesting_attr.rs:89. *)
Definition parse_meta (ts : list tok) : option smeta :=
  get? x := parse_path ts in
  let p := fst x in
  match snd x with
  | [] => Some (SPath p)
  | [TGroup d g] => match d with DNone => None | _ => Some (SList p d g) end
  | TPunct e :: v => if String.eqb e "=" then match v with [] => None | _ => Some (SValue p v) end else None
  | _ => None
  end.
(** The tokens as text: to_token_stream of default_arg.rs:71. *)
Definition open_of (d : delim) : string := match d with DParen => "(" | DBrace => "{" | DBracket => "[" | DNone => "" end.
(** The same. *)
Definition close_of (d : delim) : string := match d with DParen => ")" | DBrace => "}" | DBracket => "]" | DNone => "" end.
(** The same: a space between two words. *)
Definition wordy (t : tok) : bool :=
  match t with TIdent _ | TLit _ => true | _ => false end.
(** The same. *)
Fixpoint show_tok (t : tok) : string :=
  match t with
  | TIdent s | TPunct s | TLit s => s
  | TGroup d l =>
      (open_of d
       ++ (fix show_toks (l : list tok) : string :=
             match l with
             | [] => ""
             | x :: r =>
                 show_tok x
                 ++ match r with y :: _ => if wordy x && wordy y then " " else "" | [] => "" end
                 ++ show_toks r
             end) l
       ++ close_of d)%string
  end.
(** The same for a list of tokens. *)
Definition show (ts : list tok) : string := show_tok (TGroup DNone ts).
(** The text of a literal tells its kind (syn::Lit, util.rs:21). *)
Definition quote : ascii := Ascii.ascii_of_nat 34.
(** Lit::Int and Lit::Float, value.rs:151-160. *)
Definition is_digit (c : ascii) : bool :=
  let n := Ascii.nat_of_ascii c in Nat.leb 48 n && Nat.leb n 57.
(** The same: a number starts with a digit. *)
Definition is_number (s : string) : bool :=
  match s with String x _ => is_digit x | EmptyString => false end.
(** Without the last character: lit_value.value() of util.rs:23. *)
Fixpoint chop (s : string) : string :=
  match s with
  | EmptyString => EmptyString
  | String c EmptyString => EmptyString
  | String c r => String c (chop r)
  end.
(** Lit::Str and its value, util.rs:21-23. *)
Definition lit_str (s : string) : option string :=
  match s with
  | String c r => if Ascii.eqb c quote then Some (chop r) else None
  | EmptyString => None
  end.
(** Lit::Bool, value.rs:164. *)
Definition lit_bool (s : string) : option bool :=
  if String.eqb s "true" then Some true else if String.eqb s "false" then Some false else None.
(** Parse for syn::Lit: a token, a negative number, or a boolean; the items of
    nesting_attr.rs:98. *)
Definition parse_lit (ts : list tok) : option string :=
  match ts with
  | [TLit s] => Some s
  | [TPunct p; TLit s] => if String.eqb p "-" && is_number s then Some (show ts) else None
  | [TIdent s] => match lit_bool s with Some _ => Some s | None => None end
  | _ => None
  end.
(** darling's Parse for NestedMeta, nesting_attr.rs:93-101. *)
Definition parse_nested (ts : list tok) : option nmeta :=
  match parse_lit ts with
  | Some s => Some (NLit s)
  | None => option_map NMeta (parse_meta ts)
  end.
(** Punctuated::parse_terminated with commas: pieces between commas, an empty one only
    after a comma at the end.  Used by nesting_attr.rs:89 and syn_value.rs:236. *)
Fixpoint split_commas (ts : list tok) : list (list tok) :=
  match ts with
  | [] => [[]]
  | t :: r =>
      match t with
      | TPunct p =>
          if String.eqb p "," then [] :: split_commas r
          else match split_commas r with c :: cs => (t :: c) :: cs | [] => [[t]] end
      | _ => match split_commas r with c :: cs => (t :: c) :: cs | [] => [[t]] end
      end
  end.
(** The same, without the empty piece at the end. *)
Definition terminated (ts : list tok) : list (list tok) := drop_empty_last (split_commas ts).
(** A parse of every piece, syn_value.rs:236. *)
Fixpoint all_some {A B} (f : A -> option B) (l : list A) : option (list B) :=
  match l with
  | [] => Some []
  | a :: r => get? b := f a in get? bs := all_some f r in Some (b :: bs)
  end.
(** NestedMeta::parse_meta_list, nesting_attr.rs:89, fieldx_derive/src/lib.rs:591. *)
Definition parse_meta_list (ts : list tok) : option (list nmeta) := all_some parse_nested (terminated ts).

(** ToTokens for syn::Path, lib.rs:129. *)
Fixpoint segs_toks (l : list string) : list tok :=
  match l with
  | [] => []
  | [s] => [TIdent s]
  | s :: r => TIdent s :: TPunct ":" :: TPunct ":" :: segs_toks r
  end.
(** The same. *)
Definition path_toks (p : path) : list tok :=
  if p_abs p then TPunct ":" :: TPunct ":" :: segs_toks (p_segs p) else segs_toks (p_segs p).
(** The same, as text. *)
Definition show_path (p : path) : string := show (path_toks p).
(** ToTokens for syn::Meta in a NestedMeta, default_arg.rs:71. *)
Definition meta_toks (m : smeta) : list tok :=
  match m with
  | SPath p => path_toks p
  | SList p d ts => path_toks p ++ [TGroup d ts]
  | SValue p ts => path_toks p ++ TPunct "=" :: ts
  end.

(** ** darling *)
(** util::path_to_string: the segments; leading colons do not count.  This is the name
    matched with the fields of fieldx_derive/src/util/args.rs:19-65. *)
Definition path_name (p : path) : string := String.concat "::" (p_segs p).
(** Meta::path, the same use. *)
Definition meta_path (m : smeta) : path :=
  match m with SPath p | SList p _ _ | SValue p _ => p end.
(** The name of an item, the same use. *)
Definition meta_name (m : smeta) : string := path_name (meta_path m).
(** What a derived from_list has stored for a field
    (fieldx_derive/src/util/args.rs:16-65). *)
Fixpoint assoc {A} (n : string) (l : list (string * A)) : option A :=
  match l with
  | [] => None
  | (k, a) :: r => if String.eqb n k then Some a else assoc n r
  end.
(** The loop of a derived from_list: literals, unknown names and repeated names are
    errors.  Derived at fieldx_derive/src/util/args.rs:16, fields.rs:17, value.rs:14,
    serde_helper.rs:14, fallible.rs:7 and fieldx_derive_support/src/lib.rs:190. *)
Fixpoint collect (known : list string) (seen : list (string * smeta)) (items : list nmeta)
  : option (list (string * smeta)) :=
  match items with
  | [] => Some seen
  | NLit _ :: _ => None
  | NMeta m :: r =>
      let n := meta_name m in
      if mem n known && negb (is_some (assoc n seen)) then collect known ((n, m) :: seen) r else None
  end.
(** A field of the receiver of type Option<T>, as in
    fieldx_derive/src/util/args.rs:20-62. *)
Definition opt_arg {A} (seen : list (string * smeta)) (n : string) (f : smeta -> option A)
  : option (option A) :=
  match assoc n seen with
  | None => Some None
  | Some m => option_map Some (f m)
  end.
(** A field of type util::Flag: only the bare word; accessor_helper.rs:33-38. *)
Definition flag (seen : list (string * smeta)) (n : string) : option bool :=
  match assoc n seen with
  | None => Some false
  | Some (SPath _) => Some true
  | Some _ => None
  end.
(** FromMeta::from_meta where only from_list is implemented, as for PathList. *)
Definition by_list {A} (from_list : list nmeta -> option A) (m : smeta) : option A :=
  match m with
  | SList _ _ ts => get? l := parse_meta_list ts in from_list l
  | _ => None
  end.
(** FromMeta for bool: setter_helper.rs:14. *)
Definition bool_from_meta (m : smeta) : option bool :=
  match m with
  | SPath _ => Some true
  | SValue _ v =>
      get? s := parse_lit v in
      match lit_bool s with
      | Some b => Some b
      | None => get? t := lit_str s in lit_bool t
      end
  | SList _ _ _ => None
  end.
(** FromMeta for syn::Path: [= "path"] or [= path]; lib.rs:106. *)
Definition path_from_meta (m : smeta) : option string :=
  match m with
  | SValue _ v =>
      match parse_lit v with
      | Some s => lit_str s
      | None => get? x := parse_path v in
                match snd x with [] => Some (show_path (fst x)) | _ => None end
      end
  | _ => None
  end.
(** FromMeta for util::PathList: serde_helper.rs:25. *)
Definition path_list (m : smeta) : option (list string) :=
  by_list (all_some (fun i => match i with NMeta (SPath p) => Some (show_path p) | _ => None end)) m.

(** ** nesting_attr.rs *)
(** nesting_attr.rs:91, 98-100. *)
Definition literals (l : list nmeta) : list string :=
  flat_map (fun i => match i with NLit s => [s] | NMeta _ => [] end) l.
(** nesting_attr.rs:90, 95-97. *)
Definition non_literals (l : list nmeta) : list nmeta :=
  filter (fun i => match i with NLit _ => false | NMeta _ => true end) l.
(** nesting_attr.rs:80-113 (extract_literals). *)
Definition extract_literals {A} (from_list : list nmeta -> option A)
    (set_literals : A -> list string -> option A) (ts : list tok) : option A :=
  get? nlist := parse_meta_list ts in
  get? fattr := from_list (non_literals nlist) in
  match literals nlist with
  | [] => Some fattr
  | ls => set_literals fattr ls
  end.
(** nesting_attr.rs:123-147 (from_meta) with literals. *)
Definition nesting {A} (for_keyword : option A) (from_list : list nmeta -> option A)
    (from_value : smeta -> option A) (set_literals : A -> list string -> option A) (m : smeta) : option A :=
  match m with
  | SList _ _ ts => extract_literals from_list set_literals ts
  | SPath _ => for_keyword
  | SValue _ _ => from_value m
  end.
(** The same without literals (FXSynValue, lib.rs:197; nesting_attr.rs:123-147). *)
Definition nesting_syn {A} (for_keyword : option A) (from_meta : smeta -> option A) (m : smeta) : option A :=
  match m with
  | SPath _ => for_keyword
  | _ => from_meta m
  end.
(** A derived struct has nothing for [name = value]: nesting_attr.rs:141-144. *)
Definition no_value {A} (m : smeta) : option A := None.

(** ** Argument types *)
(** value.rs:14-19 (FXValueArg) with its FromMeta: the flag off. *)
Definition value_from_list (l : list nmeta) : option bool :=
  get? seen := collect ["off"] [] l in flag seen "off".
(** FXBool (lib.rs:203): value.rs:21-44 (validate_literals, as_keyword), 71-80.  The result
    is what is_true answers (56-60). *)
Definition bool_arg (m : smeta) : option bool :=
  option_map negb (nesting (Some false) value_from_list no_value (fun _ _ => None) m).
(** FXString (lib.rs:201): value.rs:21-44, 130-149, 161. *)
Definition string_arg (m : smeta) : option strarg :=
  nesting None
    (fun l => get? off := value_from_list l in Some (mk_strarg off None)) no_value
    (fun a ls => match ls with
                 | [s] => get? v := lit_str s in Some (mk_strarg (sa_off a) (Some v))
                 | _ => None
                 end) m.

(** lib.rs:95-110 (FXPubMode), with the FromMeta derived for an enum. *)
Definition pub_from_list (l : list nmeta) : option pubmode :=
  match l with
  | [NMeta m] =>
      let n := meta_name m in
      if String.eqb n "crate" then match m with SPath _ => Some PMCrate | _ => None end
      else if String.eqb n "super" then match m with SPath _ => Some PMSuper | _ => None end
      else if String.eqb n "in_mod" then option_map PMInMod (path_from_meta m)
      else None
  | _ => None
  end.
(** The same for [name = value]. *)
Definition pub_from_value (m : smeta) : option pubmode :=
  match m with
  | SValue _ v =>
      get? s := parse_lit v in
      get? t := lit_str s in
      if String.eqb t "crate" then Some PMCrate
      else if String.eqb t "super" then Some PMSuper else None
  | _ => None
  end.
(** lib.rs:112-120. *)
Definition pub_arg (m : smeta) : option pubmode :=
  nesting (Some PMAll) pub_from_list pub_from_value (fun _ _ => None) m.

(** attributes.rs:25-61. *)
Definition attributes_arg (m : smeta) : option (list string) :=
  match m with
  | SList _ _ ts => match from_meta (MetaList ts) with AOk l => Some (map show l) | APanics => None end
  | _ => None
  end.

(** fieldx_derive_support/src/lib.rs:189-208: the parts common to all helpers. *)
Definition helper_names : list string := ["name"; "off"; "attributes_fn"; "public"; "private"].
(** The same, with the check of lines 73-79, 149-176 and 240-251. *)
Definition helper_of (seen : list (string * smeta)) : option helper :=
  get? n := opt_arg seen "name" string_arg in
  get? off := flag seen "off" in
  get? a := opt_arg seen "attributes_fn" attributes_arg in
  get? pub := opt_arg seen "public" pub_arg in
  get? priv := opt_arg seen "private" bool_arg in
  let h := mk_helper off n a pub priv in
  get? _ := ensure (helper_exclusives_ok h) in
  Some h.
(** util.rs:5-48 (set_literals!) with [..1 => name as Lit::Str], and
    accessor_helper.rs:78-99. *)
Definition literal_name (ls : list string) : option strarg :=
  match ls with
  | [s] => get? v := lit_str s in Some (mk_strarg false (Some v))
  | _ => None
  end.
(** util.rs:23, accessor_helper.rs:88. *)
Definition with_name (h : helper) (n : strarg) : helper :=
  mk_helper (h_off h) (Some n) (h_attributes_fn h) (h_public h) (h_private h).

(** FXHelper (lib.rs:193): base_helper.rs:20-39. *)
Definition helper_arg (m : smeta) : option helper :=
  nesting (Some helper_default)
    (fun l => get? seen := collect helper_names [] l in helper_of seen) no_value
    (fun h ls => get? n := literal_name ls in Some (with_name h n)) m.

(** FXAccessor: accessor_helper.rs:27-39, 73-100. *)
Definition accessor_arg (m : smeta) : option accessor :=
  nesting (Some (mk_accessor helper_default false false false))
    (fun l =>
       get? seen := collect (helper_names ++ ["clone"; "copy"; "as_ref"]) [] l in
       get? h := helper_of seen in
       get? cl := flag seen "clone" in
       get? cp := flag seen "copy" in
       get? ar := flag seen "as_ref" in
       let a := mk_accessor h cl cp ar in
       get? _ := ensure (accessor_exclusives_ok a) in
       Some a) no_value
    (fun a ls => get? n := literal_name ls in
       Some (mk_accessor (with_name (a_base a) n) (a_clone a) (a_copy a) (a_as_ref a))) m.

(** FXSetter: setter_helper.rs:10-37. *)
Definition setter_arg (m : smeta) : option setter :=
  nesting (Some (mk_setter helper_default None))
    (fun l =>
       get? seen := collect (helper_names ++ ["into"]) [] l in
       get? h := helper_of seen in
       get? i := opt_arg seen "into" bool_from_meta in
       Some (mk_setter h i)) no_value
    (fun a ls => get? n := literal_name ls in Some (mk_setter (with_name (st_base a) n) (st_into a))) m.

(** syn_value.rs:40-56 with syn::Ident, 78-85 (AS_KEYWORD): builder_helper.rs:51. *)
Definition ident_arg (m : smeta) : option (option string) :=
  nesting_syn (Some None)
    (fun m => match m with
              | SList _ _ [TIdent s] => if ident_ok s then Some (Some s) else None
              | _ => None
              end) m.
(** syn::Path from exactly these tokens: syn::parse2 of syn_value.rs:47. *)
Definition whole_path (ts : list tok) : option string :=
  get? x := parse_path ts in match snd x with [] => Some (show_path (fst x)) | _ => None end.
(** syn_value.rs:40-56, 76 with syn::Path: fallible.rs:8-14. *)
Definition path_arg (m : smeta) : option string :=
  nesting_syn None (fun m => match m with SList _ _ ts => whole_path ts | _ => None end) m.
(** syn_value.rs:230-254 (FXPunctuated, MIN = 1, MAX = 2): builder_helper.rs:55. *)
Definition error_arg (m : smeta) : option (list string) :=
  nesting_syn None
    (fun m => match m with
              | SList _ _ ts =>
                  get? l := all_some whole_path (terminated ts) in
                  get? _ := ensure (Nat.leb 1 (List.length l) && Nat.leb (List.length l) 2) in
                  Some l
              | _ => None
              end) m.

(** FXBuilder: builder_helper.rs:13-56. *)
Definition builder_names : list string :=
  ["attributes"; "attributes_impl"; "into"; "required"; "opt_in"; "post_build"; "error"].
(** Default, builder_helper.rs:14. *)
Definition builder_default : builder :=
  mk_builder helper_default None None None None None None None.
(** builder_helper.rs:98-130; [on_struct] is STRUCT. *)
Definition builder_arg (on_struct : bool) (m : smeta) : option builder :=
  nesting (Some builder_default)
    (fun l =>
       get? seen := collect (helper_names ++ builder_names) [] l in
       get? h := helper_of seen in
       get? a := opt_arg seen "attributes" attributes_arg in
       get? ai := opt_arg seen "attributes_impl" attributes_arg in
       get? into := opt_arg seen "into" bool_arg in
       get? req := opt_arg seen "required" bool_arg in
       get? opt := opt_arg seen "opt_in" bool_arg in
       get? post := opt_arg seen "post_build" ident_arg in
       get? err := opt_arg seen "error" error_arg in
       let b := mk_builder h a ai into req opt post err in
       get? _ := ensure (on_struct || field_builder_ok b) in
       Some b) no_value
    (fun b ls => get? n := literal_name ls in
       Some (mk_builder (with_name (b_base b) n) (b_attributes b) (b_attributes_impl b) (b_into b)
               (b_required b) (b_opt_in b) (b_post_build b) (b_error b))) m.

(** FXNestingAttr<FXFallible>: fallible.rs:6-46; literals are refused by the default
    set_literals (nesting_attr.rs:42-53). *)
Definition fallible_arg (m : smeta) : option fallible :=
  nesting (Some (mk_fallible false None))
    (fun l =>
       get? seen := collect ["off"; "error"] [] l in
       get? off := flag seen "off" in
       get? e := opt_arg seen "error" path_arg in
       Some (mk_fallible off e)) no_value (fun _ _ => None) m.

(** lib.rs:155-171 (Parse for FXSyncMode; parse_any takes keywords too) in FXSynValue. *)
Definition mode_arg (m : smeta) : option syncmode :=
  nesting_syn None
    (fun m => match m with
              | SList _ _ [TIdent s] =>
                  if String.eqb s "sync" then Some MSync
                  else if String.eqb s "async" then Some MAsync
                  else if String.eqb s "plain" then Some MPlain else None
              | _ => None
              end) m.

(** default_arg.rs:26-34, 71: an item as its text. *)
Definition item_text (i : nmeta) : string * bool :=
  match i with
  | NLit s => (s, is_some (lit_str s))
  | NMeta m => (show (meta_toks m), false)
  end.
(** default_arg.rs:46-53: of two items the first is the word off. *)
Definition off_first (l : list nmeta) : bool :=
  match l with
  | [i; _] =>
      match i with
      | NMeta (SPath p) => negb (p_abs p) && String.eqb (path_name p) "off"
      | _ => false
      end
  | _ => true
  end.
(** default_arg.rs:43-92, OPTIONAL = true. *)
Definition default_arg (m : smeta) : option defarg :=
  match m with
  | SPath _ => Some default_from_word
  | SList _ _ ts => 
      get? l := parse_meta_list ts in
      get? _ := ensure (off_first l) in
      default_from_list (map item_text l)
  | SValue _ _ => None
  end.

(** FXSerde: serde_helper.rs:14-32. *)
Definition serde_names : list string :=
  ["off"; "public"; "private"; "attributes"; "serialize"; "deserialize"; "forward_attrs"; "default";
   "shadow_name"].
(** serde_helper.rs:34-40, 48-55; the check looks at is_true (util.rs:50-141). *)
Definition serde_arg (m : smeta) : option serde :=
  nesting (Some (mk_serde false None None None None None None None None))
    (fun l =>
       get? seen := collect serde_names [] l in
       get? off := flag seen "off" in
       get? pub := opt_arg seen "public" pub_arg in
       get? priv := opt_arg seen "private" bool_arg in
       get? a := opt_arg seen "attributes" attributes_arg in
       get? ser := opt_arg seen "serialize" bool_arg in
       get? de := opt_arg seen "deserialize" bool_arg in
       get? fwd := opt_arg seen "forward_attrs" path_list in
       get? d := opt_arg seen "default" default_arg in
       get? sh := opt_arg seen "shadow_name" string_arg in
       get? _ := ensure (negb (given pub && on priv)) in
       Some (mk_serde off pub priv a ser de fwd d sh)) no_value
    (fun w ls => get? n := literal_name ls in
       Some (mk_serde (se_off w) (se_public w) (se_private w) (se_attributes w) (se_serialize w)
               (se_deserialize w) (se_forward_attrs w) (se_default w) (Some n))) m.

(** ** The attributes *)
(** fieldx_derive/src/util.rs:97-111 (feature_required) for the three arguments checked in
    util/args.rs:89-102 and fields.rs:155-168. *)
Definition features_ok (ft : features) (sync async : option bool) (w : option serde) : bool :=
  (ft_sync ft || negb (on sync))
  && (ft_async ft || negb (on async))
  && (ft_serde ft || negb (match w with Some w => negb (se_off w) | None => false end)).

(** fieldx_derive/src/util/args.rs:16-65. *)
Definition struct_names : list string :=
  ["mode"; "sync"; "r#async"; "builder"; "into"; "no_new"; "default"; "rc"; "attributes";
   "attributes_impl"; "fallible"; "lazy"; "get"; "get_mut"; "set"; "reader"; "writer"; "clearer";
   "predicate"; "optional"; "public"; "private"; "clone"; "copy"; "lock"; "inner_mut"; "serde"].
(** The same. *)
Definition sargs_of (seen : list (string * smeta)) : option sargs :=
  get? mode := opt_arg seen "mode" mode_arg in
  get? sync := opt_arg seen "sync" bool_arg in
  get? async := opt_arg seen "r#async" bool_arg in
  get? builder := opt_arg seen "builder" (builder_arg true) in
  get? into := opt_arg seen "into" bool_arg in
  get? no_new := opt_arg seen "no_new" bool_arg in
  get? default := opt_arg seen "default" bool_arg in
  get? rc := opt_arg seen "rc" helper_arg in
  get? attributes := opt_arg seen "attributes" attributes_arg in
  get? attributes_impl := opt_arg seen "attributes_impl" attributes_arg in
  get? fallible := opt_arg seen "fallible" fallible_arg in
  get? lazy := opt_arg seen "lazy" helper_arg in
  get? accessor := opt_arg seen "get" accessor_arg in
  get? accessor_mut := opt_arg seen "get_mut" helper_arg in
  get? setter := opt_arg seen "set" setter_arg in
  get? reader := opt_arg seen "reader" helper_arg in
  get? writer := opt_arg seen "writer" helper_arg in
  get? clearer := opt_arg seen "clearer" helper_arg in
  get? predicate := opt_arg seen "predicate" helper_arg in
  get? optional := opt_arg seen "optional" bool_arg in
  get? public := opt_arg seen "public" pub_arg in
  get? private := opt_arg seen "private" bool_arg in
  get? clone := opt_arg seen "clone" bool_arg in
  get? copy := opt_arg seen "copy" bool_arg in
  get? lock := opt_arg seen "lock" bool_arg in
  get? inner_mut := opt_arg seen "inner_mut" bool_arg in
  get? serde := opt_arg seen "serde" serde_arg in
  Some (mk_sargs mode sync async builder into no_new default rc attributes attributes_impl fallible
          lazy accessor accessor_mut setter reader writer clearer predicate optional public private
          clone copy lock inner_mut serde).
(** fieldx_derive/src/lib.rs:589-601 (fxstruct), util/args.rs:67-107 (validate). *)
Definition read_struct (ft : features) (ts : list tok) : option sargs :=
  get? items := parse_meta_list ts in
  get? seen := collect struct_names [] items in
  get? s := sargs_of seen in
  get? _ := ensure (match sargs_errors s with [] => true | _ => false end) in
  get? _ := ensure (features_ok ft (s_mode_sync s) (s_mode_async s) (s_serde s)) in
  Some s.

(** fieldx_derive/src/fields.rs:17-77. *)
Definition field_names : list string :=
  ["skip"; "mode"; "sync"; "r#async"; "attributes_fn"; "fallible"; "lazy"; "rename"; "get"; "get_mut";
   "set"; "reader"; "writer"; "clearer"; "predicate"; "optional"; "public"; "private"; "default";
   "builder"; "into"; "clone"; "copy"; "lock"; "inner_mut"; "serde"].
(** The same; ident, vis, ty and attrs come from the field itself. *)
Definition field_of (ident vis ty : string) (attrs : list string) (seen : list (string * smeta))
  : option field :=
  get? skip := flag seen "skip" in
  get? mode := opt_arg seen "mode" mode_arg in
  get? sync := opt_arg seen "sync" bool_arg in
  get? async := opt_arg seen "r#async" bool_arg in
  get? attributes_fn := opt_arg seen "attributes_fn" attributes_arg in
  get? fallible := opt_arg seen "fallible" fallible_arg in
  get? lazy := opt_arg seen "lazy" helper_arg in
  get? rename := opt_arg seen "rename" string_arg in
  get? accessor := opt_arg seen "get" accessor_arg in
  get? accessor_mut := opt_arg seen "get_mut" helper_arg in
  get? setter := opt_arg seen "set" setter_arg in
  get? reader := opt_arg seen "reader" helper_arg in
  get? writer := opt_arg seen "writer" helper_arg in
  get? clearer := opt_arg seen "clearer" helper_arg in
  get? predicate := opt_arg seen "predicate" helper_arg in
  get? optional := opt_arg seen "optional" bool_arg in
  get? public := opt_arg seen "public" pub_arg in
  get? private := opt_arg seen "private" bool_arg in
  get? default := opt_arg seen "default" default_arg in
  get? builder := opt_arg seen "builder" (builder_arg false) in
  get? into := opt_arg seen "into" bool_arg in
  get? clone := opt_arg seen "clone" bool_arg in
  get? copy := opt_arg seen "copy" bool_arg in
  get? lock := opt_arg seen "lock" bool_arg in
  get? inner_mut := opt_arg seen "inner_mut" bool_arg in
  get? serde := opt_arg seen "serde" serde_arg in
  Some (mk_field ident vis ty attrs skip mode sync async attributes_fn fallible lazy rename accessor
          accessor_mut setter reader writer clearer predicate optional public private default builder
          into clone copy lock inner_mut serde).
(** darling's FromField, derived at fieldx_derive/src/fields.rs:17-20: the items of all
    [fieldx] attributes in one loop. *)
Fixpoint field_items (l : list fattr) : option (list nmeta) :=
  match l with
  | [] => Some []
  | FWord :: r => field_items r
  | FList ts :: r => get? a := parse_meta_list ts in get? b := field_items r in Some (a ++ b)
  | FValue _ :: _ => None
  end.
(** fieldx_derive/src/fields.rs:90 (require_path_only). *)
Definition is_word (a : fattr) : bool := match a with FWord => true | _ => false end.
(** fieldx_derive/src/fields.rs:82-107 (FromField for FXField): the bare attribute, then
    validate, 127-173. *)
Definition read_field (ft : features) (ident vis ty : string) (attrs : list string) (l : list fattr)
  : option field :=
  get? items := field_items l in
  get? seen := collect field_names [] items in
  get? f0 := field_of ident vis ty attrs seen in
  let f := if existsb is_word l then mark_implicitly f0 else f0 in
  get? _ := ensure (match field_errors f with [] => true | _ => false end) in
  get? _ := ensure (features_ok ft (f_mode_sync f) (f_mode_async f) (f_serde f)) in
  Some f.
