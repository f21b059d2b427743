(** Specification vocabulary for JSON: the grammar of RFC 8259 for numbers, strings and documents, JSON trees, paths. Nothing
    here refers to the code, except for the names of the token types, the type of Values and its constructors. *)
From Verif Require Import Base Iter IterSpec Readers ReaderSpec Union Rest Json JsonLex.
Open Scope Z_scope.

(** ** Numbers *)
Definition digitc (c : Z) : Prop := 48 <= c <= 57.
Definition digits1 (l : list Z) : Prop := l <> [] /\ Forall digitc l.

Inductive sign_part : list Z -> Prop := sg_none : sign_part [] | sg_minus : sign_part [45].
(** 0, or digits that do not start with 0 *)
Inductive int_part : list Z -> Prop :=
| int_zero : int_part [48]
| int_nonzero d ds : 49 <= d <= 57 -> Forall digitc ds -> int_part (d :: ds).
Inductive frac_part : list Z -> Prop :=
| frac_none : frac_part []
| frac_some ds : digits1 ds -> frac_part (46 :: ds).
Inductive exp_part : list Z -> Prop :=
| exp_none : exp_part []
| exp_some e sg ds : e = 101 \/ e = 69 -> sg = [] \/ sg = [43] \/ sg = [45] -> digits1 ds -> exp_part (e :: sg ++ ds).

Definition json_number (s : list Z) : Prop :=
  exists sg i f x, s = sg ++ i ++ f ++ x /\ sign_part sg /\ int_part i /\ frac_part f /\ exp_part x.

(** What the lexer is found to accept: the same, except that after a minus sign the integer part may start with zeros.
    The parts are kept, to say where the number ends. *)
Inductive lex_number : list Z -> list Z -> list Z -> Prop :=   (* sign and integer part, fraction, exponent *)
| ln_pos i f x : int_part i -> frac_part f -> exp_part x -> lex_number i f x
| ln_neg ds f x : digits1 ds -> frac_part f -> exp_part x -> lex_number (45 :: ds) f x.

(** The next character cannot continue the number. *)
Definition number_ends (f x : list Z) (rest : list Z) : Prop :=
  match rest with
  | [] => True
  | c :: _ => ~ digitc c /\ (x = [] -> c <> 101 /\ c <> 69) /\ (x = [] -> f = [] -> c <> 46)
  end.

(** ** Strings *)
Inductive hexdigit : Z -> Z -> Prop :=
| hex_09 d : 0 <= d <= 9 -> hexdigit (48 + d) d
| hex_AF d : 10 <= d <= 15 -> hexdigit (55 + d) d
| hex_af d : 10 <= d <= 15 -> hexdigit (87 + d) d.
(** backslash, u, four hexadecimal digits: the 16 bit unit [n] *)
Inductive unit_escape : list Z -> Z -> Prop :=
| ue c1 c2 c3 c4 d1 d2 d3 d4 : hexdigit c1 d1 -> hexdigit c2 d2 -> hexdigit c3 d3 -> hexdigit c4 d4 ->
    unit_escape [92; 117; c1; c2; c3; c4] (((d1 * 16 + d2) * 16 + d3) * 16 + d4).

Definition high_surrogate (n : Z) : Prop := 55296 <= n <= 56319.
Definition low_surrogate (n : Z) : Prop := 56320 <= n <= 57343.
(** the code point of a surrogate pair *)
Definition pair_value (hi lo : Z) : Z := 65536 + (hi - 55296) * 1024 + (lo - 56320).

(** The ways RFC 8259 allows to write one character in a string. *)
Inductive spelled : list Z -> Z -> Prop :=
| sp_literal c : 32 <= c -> c <> 34 -> c <> 92 -> spelled [c] c
| sp_quote : spelled [92; 34] 34
| sp_backslash : spelled [92; 92] 92
| sp_slash : spelled [92; 47] 47
| sp_b : spelled [92; 98] 8
| sp_f : spelled [92; 102] 12
| sp_n : spelled [92; 110] 10
| sp_r : spelled [92; 114] 13
| sp_t : spelled [92; 116] 9
| sp_unit u n : unit_escape u n -> ~ high_surrogate n -> ~ low_surrogate n -> spelled u n
| sp_pair u1 n1 u2 n2 : unit_escape u1 n1 -> unit_escape u2 n2 -> high_surrogate n1 -> low_surrogate n2 ->
    spelled (u1 ++ u2) (pair_value n1 n2).
Definition spells (body : list Z) (s : list Z) : Prop := exists parts, body = concat parts /\ Forall2 spelled parts s.

(** What the lexer is found to do: a surrogate pair is also taken in the wrong order, and the escape of the double quote
    as a 16 bit unit ends the string. *)
Inductive lex_spelled : list Z -> Z -> Prop :=
| ls_standard u c : spelled u c -> (c = 34 -> u = [92; 34]) -> lex_spelled u c
| ls_reversed u1 n1 u2 n2 : unit_escape u1 n1 -> unit_escape u2 n2 -> low_surrogate n1 -> high_surrogate n2 ->
    lex_spelled (u1 ++ u2) (pair_value n2 n1).
Inductive lex_end : list Z -> Prop :=
| le_quote : lex_end [34]
| le_unit u : unit_escape u 34 -> lex_end u.

(** ** Trees *)
(** Strings and keys are Go strings (bytes).  [JInvalid] is the zero Value. *)
Inductive tree : Type :=
| JObj (m : list (str * tree))
| JArr (l : list tree)
| JStr (s : str)
| JNum (s : str)
| JBool (b : bool)
| JNull
| JInvalid.

(** The Value the API builds for a tree. *)
Fixpoint value_of (t : tree) : value :=
  match t with
  | JObj m => mkV TObject (of4t (map (fun kv => (fst kv, value_of (snd kv))) m))
  | JArr l => mkV TArray (of4u (map value_of l))
  | JStr s => mkV TString (of4v s)
  | JNum s => mkV TNumber (of4v s)
  | JBool b => mkV TBoolean (of4w b)
  | JNull => mkV TNull zero4
  | JInvalid => mkV TInvalid zero4
  end.

(** The Go value of type any for a tree: map[string]any, []any, string, NumberString, bool and nil. *)
Fixpoint any_of (t : tree) : gany :=
  match t with
  | JObj m => AMap (map (fun kv => (fst kv, any_of (snd kv))) m)
  | JArr l => ASlice (map any_of l)
  | JStr s => AString s
  | JNum s => ANumString s
  | JBool b => ABool b
  | JNull | JInvalid => ANil
  end.
(** objects with distinct keys *)
Definition keys_distinct (t : tree) : Prop := match t with JObj m => NoDup (map fst m) | _ => True end.
(** number strings with a digit in them *)
Definition has_digit (t : tree) : Prop := match t with JNum s => exists c, In c s /\ 48 <= c <= 57 | _ => True end.
Definition not_invalid (t : tree) : Prop := t <> JInvalid.

(** A property of every node of a tree. *)
Inductive every (P : tree -> Prop) : tree -> Prop :=
| every_obj m : P (JObj m) -> (forall k t, In (k, t) m -> every P t) -> every P (JObj m)
| every_arr l : P (JArr l) -> (forall t, In t l -> every P t) -> every P (JArr l)
| every_leaf t : (match t with JObj _ | JArr _ => False | _ => True end) -> P t -> every P t.

(** ** Documents, as sequences of tokens *)
(** [strict] is RFC 8259 (members with distinct names); otherwise what the parser is found to accept: any stray token
    in the place of a value, which then is the invalid Value, and a comma after the last member of an object. *)
Definition stray (t : toktype) : Prop := t = tCBracket \/ t = tCBrace \/ t = tComma \/ t = tColon.

Inductive gval (strict : bool) : list token -> tree -> Prop :=
| g_str s : gval strict [mkTok tString s] (JStr s)
| g_num s : gval strict [mkTok tNumber s] (JNum s)
| g_true : gval strict [tokTrue] (JBool true)
| g_false : gval strict [tokFalse] (JBool false)
| g_null s : gval strict [mkTok tNull s] JNull
| g_stray t s : strict = false -> stray t -> gval strict [mkTok t s] JInvalid
| g_obj0 o c : ttyp o = tOBrace -> ttyp c = tCBrace -> gval strict [o; c] (JObj [])
| g_obj o ts m : ttyp o = tOBrace -> gmembers strict [] ts m -> gval strict (o :: ts) (JObj m)
| g_arr0 o c : ttyp o = tOBracket -> ttyp c = tCBracket -> gval strict [o; c] (JArr [])
| g_arr o ts l : ttyp o = tOBracket -> hd tCBracket (map ttyp ts) <> tCBracket -> gelems strict ts l -> gval strict (o :: ts) (JArr l)
(** one or more members and the closing brace; the names in [seen] are used already *)
with gmembers (strict : bool) : list str -> list token -> list (str * tree) -> Prop :=
| gm_last seen k colon ts t c : ~ In k seen -> ttyp colon = tColon -> gval strict ts t -> ttyp c = tCBrace ->
    gmembers strict seen (mkTok tString k :: colon :: ts ++ [c]) [(k, t)]
| gm_comma seen k colon ts t comma c : strict = false -> ~ In k seen -> ttyp colon = tColon -> gval strict ts t ->
    ttyp comma = tComma -> ttyp c = tCBrace ->
    gmembers strict seen (mkTok tString k :: colon :: ts ++ [comma; c]) [(k, t)]
| gm_more seen k colon ts t comma ts' m : ~ In k seen -> ttyp colon = tColon -> gval strict ts t -> ttyp comma = tComma ->
    gmembers strict (k :: seen) ts' m ->
    gmembers strict seen (mkTok tString k :: colon :: ts ++ comma :: ts') ((k, t) :: m)
(** one or more elements and the closing bracket *)
with gelems (strict : bool) : list token -> list tree -> Prop :=
| ge_last ts t c : gval strict ts t -> ttyp c = tCBracket -> gelems strict (ts ++ [c]) [t]
| ge_more ts t comma ts' l : gval strict ts t -> ttyp comma = tComma -> gelems strict ts' l ->
    gelems strict (ts ++ comma :: ts') (t :: l).

(** One or more elements with commas between them; the array may go on in any way. *)
Inductive gsome (strict : bool) : list token -> list tree -> Prop :=
| gs_one ts t : gval strict ts t -> gsome strict ts [t]
| gs_more ts t comma ts' l : gval strict ts t -> ttyp comma = tComma -> gsome strict ts' l -> gsome strict (ts ++ comma :: ts') (t :: l).
(** the beginning of an array, up to the end of one of its elements *)
Definition array_so_far (toks : list token) (l : list tree) : Prop :=
  exists o ts, toks = o :: ts /\ ttyp o = tOBracket /\ hd tCBracket (map ttyp ts) <> tCBracket /\ gsome false ts l.

(** Token sequences that no continuation can make a document, at any depth: the complete elements or members before the
    fault, each with its comma, then the fault. *)
Definition items (l : list (list token * tree)) : list token := flat_map (fun x => fst x ++ [tokComma]) l.
Definition members (l : list (str * list token * tree)) : list token :=
  flat_map (fun x => mkTok tString (fst (fst x)) :: tokColon :: snd (fst x) ++ [tokComma]) l.
Definition items_ok (l : list (list token * tree)) : Prop :=
  Forall (fun x => gval false (fst x) (snd x)) l /\ hd tCBracket (map ttyp (items l)) <> tCBracket \/ l = [].
Definition members_ok (l : list (str * list token * tree)) : Prop := Forall (fun x => gval false (snd (fst x)) (snd x)) l.
Inductive broken : list token -> Prop :=
(* an element is not followed by a comma or the closing bracket *)
| br_arr_sep l ts t x : items_ok l -> gval false ts t -> (l = [] -> hd tCBracket (map ttyp ts) <> tCBracket) ->
    ttyp x <> tComma -> ttyp x <> tCBracket -> broken (tokOBracket :: items l ++ ts ++ [x])
| br_arr_in l ts : items_ok l -> broken ts -> broken (tokOBracket :: items l ++ ts)
(* something else in the place of a key *)
| br_obj_key l x : members_ok l -> ttyp x <> tString -> ttyp x <> tCBrace -> broken (tokOBrace :: members l ++ [x])
(* a key that has been used *)
| br_obj_dup l k : members_ok l -> In k (map (fun x => fst (fst x)) l) -> broken (tokOBrace :: members l ++ [mkTok tString k])
(* no colon after the key *)
| br_obj_colon l k x : members_ok l -> ttyp x <> tColon -> broken (tokOBrace :: members l ++ [mkTok tString k; x])
(* a value is not followed by a comma or the closing brace *)
| br_obj_sep l k ts t x : members_ok l -> gval false ts t -> ttyp x <> tComma -> ttyp x <> tCBrace ->
    broken (tokOBrace :: members l ++ mkTok tString k :: tokColon :: ts ++ [x])
| br_obj_in l k ts : members_ok l -> broken ts -> broken (tokOBrace :: members l ++ mkTok tString k :: tokColon :: ts).

(** A document is an object or an array. *)
Definition container (t : tree) : Prop := match t with JObj _ | JArr _ => True | _ => False end.

(** ** Compact text of a tree, in the order of the member lists; strings are given as runes *)
Inductive rtree : Type :=
| RObj (m : list (list Z * rtree))
| RArr (l : list rtree)
| RStr (s : list Z)
| RNum (s : list Z)
| RBool (b : bool)
| RNull.
Fixpoint sep (c : list Z) (l : list (list Z)) : list Z :=
  match l with [] => [] | [x] => x | x :: r => x ++ c ++ sep c r end.
Fixpoint render (t : rtree) : list Z :=
  match t with
  | RObj m => [123] ++ sep [44] (map (fun kv => [34] ++ fst kv ++ [34; 58] ++ render (snd kv)) m) ++ [125]
  | RArr l => [91] ++ sep [44] (map render l) ++ [93]
  | RStr s => [34] ++ s ++ [34]
  | RNum s => s
  | RBool true => text_true
  | RBool false => text_false
  | RNull => text_null
  end.
Definition utf8 (s : list Z) : str := flat_map encode s.
Fixpoint tree_of (t : rtree) : tree :=
  match t with
  | RObj m => JObj (map (fun kv => (utf8 (fst kv), tree_of (snd kv))) m)
  | RArr l => JArr (map tree_of l)
  | RStr s => JStr (utf8 s)
  | RNum s => JNum s
  | RBool b => JBool b
  | RNull => JNull
  end.
(** no escaping needed: scalar values from space on, no double quote, no backslash *)
Definition plain_char (c : Z) : Prop := scalar c /\ 32 <= c /\ c <> 34 /\ c <> 92.
Definition plain_string (s : list Z) : Prop := Forall plain_char s.
Inductive writable : rtree -> Prop :=
| w_obj m : NoDup (map fst m) -> (forall k t, In (k, t) m -> plain_string k /\ writable t) -> writable (RObj m)
| w_arr l : (forall t, In t l -> writable t) -> writable (RArr l)
| w_str s : plain_string s -> writable (RStr s)
| w_num s : json_number s -> writable (RNum s)
| w_bool b : writable (RBool b)
| w_null : writable RNull.

(** strings are scalar values and number texts are ASCII *)
Inductive encodable : rtree -> Prop :=
| enc_obj m : (forall k t, In (k, t) m -> Forall scalar k /\ encodable t) -> encodable (RObj m)
| enc_arr l : (forall t, In t l -> encodable t) -> encodable (RArr l)
| enc_str s : Forall scalar s -> encodable (RStr s)
| enc_num s : Forall (fun c => 0 <= c < 128) s -> encodable (RNum s)
| enc_bool b : encodable (RBool b)
| enc_null : encodable RNull.
Definition rcontainer (t : rtree) : Prop := match t with RObj _ | RArr _ => True | _ => False end.

(** a computation returns [a], whatever (large enough) fuel it is given *)
Definition settles {A} (f : nat -> outcome A) (a : A) : Prop := exists n, forall m, (n <= m)%nat -> f m = Done a.

(** the runes the UTF-8 reader of iter makes of an io.Reader, and the error after them *)
Definition reads {S} (rd : reader S) (s : S) (text : list Z) (e : err) : Prop :=
  yields (next (runes_gen rd)) (ofIter (runes_init s)) text e.

(** ** Paths *)
(** the number a string of digits denotes *)
Fixpoint denotes (l : list Z) (acc : Z) : Z := match l with [] => acc | c :: r => denotes r (acc * 10 + (c - 48)) end.
Inductive step : Type := Key (k : str) | Index (digits : str).
Definition step_ok (s : step) : Prop :=
  match s with
  | Key k => k <> [] /\ ~ In 46 k /\ ~ In 91 k /\ ~ In 93 k
  | Index d => digits1 d
  end.
(** indexes fit in an int *)
Definition step_fits (s : step) : Prop := match s with Key _ => True | Index d => denotes d 0 <= 9223372036854775807 end.
Definition path_text (p : list step) : str :=
  flat_map (fun s => match s with Key k => 46 :: k | Index d => [91] ++ d ++ [93] end) p.
(** the sub-tree a path leads to *)
Fixpoint lookup {V} (m : list (str * V)) (k : str) : option V :=
  match m with [] => None | (k', v) :: r => if list_eq_dec Z.eq_dec k k' then Some v else lookup r k end.
Fixpoint subtree (t : tree) (p : list step) : option tree :=
  match p with
  | [] => Some t
  | Key k :: p' => match t with JObj m => match lookup m k with Some t' => subtree t' p' | None => None end | _ => None end
  | Index d :: p' => match t with JArr l => match nth_error l (Z.to_nat (denotes d 0)) with Some t' => subtree t' p' | None => None end | _ => None end
  end.

(** ** Texts, as sequences of tokens *)
Definition wsc (c : Z) : Prop := c = 32 \/ c = 10 \/ c = 13 \/ c = 9.
Definition delimiter (c : Z) : Prop := wsc c \/ c = 44 \/ c = 58 \/ c = 91 \/ c = 93 \/ c = 123 \/ c = 125 \/ c = 34.
(** One token and the ways to write it. A string token carries the UTF-8 of the characters spelled; the escape of the
    double quote as a 16 bit unit is left out, see [lex_end]. *)
Inductive token_text : list Z -> token -> Prop :=
| tt_obracket : token_text [91] (mkTok tOBracket [91])
| tt_cbracket : token_text [93] (mkTok tCBracket [93])
| tt_obrace : token_text [123] (mkTok tOBrace [123])
| tt_cbrace : token_text [125] (mkTok tCBrace [125])
| tt_comma : token_text [44] (mkTok tComma [44])
| tt_colon : token_text [58] (mkTok tColon [58])
| tt_true : token_text [116; 114; 117; 101] (mkTok tBoolean [116; 114; 117; 101])
| tt_false : token_text [102; 97; 108; 115; 101] (mkTok tBoolean [102; 97; 108; 115; 101])
| tt_null : token_text [110; 117; 108; 108] (mkTok tNull [110; 117; 108; 108])
| tt_number s : json_number s -> token_text s (mkTok tNumber s)
| tt_string parts s : Forall2 spelled parts s -> Forall scalar s -> (forall u, In u parts -> ~ unit_escape u 34) ->
    token_text ([34] ++ concat parts ++ [34]) (mkTok tString (utf8 s)).
(** tokens, with white space before each; a number or word is followed by a delimiter *)
Inductive lexed : list Z -> list token -> list Z -> Prop :=
| lx_nil rest : lexed rest [] rest
| lx_ws c text toks rest : wsc c -> lexed text toks rest -> lexed (c :: text) toks rest
| lx_tok u t text toks rest : token_text u t ->
    (ttyp t = tNumber \/ ttyp t = tBoolean \/ ttyp t = tNull -> exists c text', text = c :: text' /\ delimiter c) ->
    lexed text toks rest -> lexed (u ++ text) (t :: toks) rest.

(** What the lexer is found to take as one token, when [rest] follows; [e] is the error after the text ([EOI] at the end of
    a complete text). *)
Definition punctuation : list (list Z * token) :=
  [([91], mkTok tOBracket [91]); ([93], mkTok tCBracket [93]); ([123], mkTok tOBrace [123]); ([125], mkTok tCBrace [125]); ([44], mkTok tComma [44]); ([58], mkTok tColon [58])].
Definition words : list (list Z * token) := [([116; 114; 117; 101], mkTok tBoolean [116; 114; 117; 101]); ([102; 97; 108; 115; 101], mkTok tBoolean [102; 97; 108; 115; 101]); ([110; 117; 108; 108], mkTok tNull [110; 117; 108; 108])].
Inductive found (e : err) : list Z -> token -> list Z -> Prop :=
| fd_punct u t rest : In (u, t) punctuation -> found e u t rest
| fd_word u t rest : In (u, t) words -> match rest with [] => e = EOI | c :: _ => ~ (97 <= c <= 122) end -> found e u t rest
| fd_number i f x rest : lex_number i f x -> number_ends f x rest -> (rest = [] -> e = EOI) ->
    found e (i ++ f ++ x) (mkTok tNumber (i ++ f ++ x)) rest
| fd_string parts s u rest : Forall2 lex_spelled parts s -> lex_end u ->
    found e ([34] ++ concat parts ++ u) (mkTok tString (string_of_runes s)) rest.
(** tokens as the lexer finds them, with white space before each *)
Inductive tokenized (e : err) : list Z -> list token -> list Z -> Prop :=
| tz_nil rest : tokenized e rest [] rest
| tz_ws c text toks rest : wsc c -> tokenized e text toks rest -> tokenized e (c :: text) toks rest
| tz_tok u t text toks rest : found e u t text -> tokenized e text toks rest -> tokenized e (u ++ text) (t :: toks) rest.
