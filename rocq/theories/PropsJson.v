(** C55-C60, C71: JSON. *)
From Verif Require Import Base Iter IterSpec IterProofs Readers ReaderSpec Writer Union Rest Json JsonLex JsonParse JsonWrite JsonSearch JsonSpec
  JsonLexProofs JsonTokProofs JsonParseProofs JsonDocProofs JsonRejectProofs JsonWriteProofs JsonSearchProofs JsonApiProofs JsonIterProofs PropsReader.
From Coq Require Import ZifyBool.
Open Scope go_scope.
Open Scope Z_scope.

(** Texts of ASCII characters, read with strings.NewReader. *)
Lemma ascii_reads text : Forall (fun c => 0 <= c < 128) text -> reads string_reader text text EOI.
Proof.
  intros F. assert (F2 : Forall scalar text) by (eapply Forall_impl; [|exact F]; intros a A; unfold scalar; cbn in A; lia).
  assert (E : flat_map encode text = text).
  { clear F2. induction F as [|c l C F IH]; [reflexivity|]. cbn [flat_map]. rewrite IH. unfold encode. destruct (c <? 128) eqn:Q; [reflexivity|lia]. }
  pose proof (C10_utf8_decodes string_reader text text EOF F2) as H. rewrite E in H. exact (H (C10_string_reader_holds text)).
Qed.
Lemma ascii_accepts text toks t rest : Forall (fun c => 0 <= c < 128) text -> tokenized EOI text toks rest -> gval false toks t -> container t ->
  settles (Parse string_reader text) (value_of t, None).
Proof. intros A TZ G C. eapply parse_accepts; eauto. apply ascii_reads; auto. Qed.
Ltac ascii := repeat constructor; lia.
Ltac punct := apply (tz_tok EOI [_]); [apply fd_punct; cbn; tauto|].

(** ** C55: numbers *)
Section C55.
  Context {S : Type} (fn : stepfn S Z).   (* any source of runes: an Iter[rune] made with OfIter *)

  (** Every RFC 8259 number at the front of the text, followed by the (clean) end of the input or a character that cannot
      be part of a number, is read whole, its text is returned, and the iterator continues with what follows it. *)
  Theorem C55_json_numbers it s rest e : json_number s -> yields (next fn) it (s ++ rest) e ->
    match rest with [] => e = EOI | c :: _ => ~ digitc c /\ c <> 46 /\ c <> 101 /\ c <> 69 end ->
    exists it', returns (lexNumber (next fn) unread) it (mkTok tNumber s, None) it' /\ yields (next fn) it' rest e.
  Proof.
    intros J Y N. destruct (json_number_lex _ J) as (i & f & x & -> & LN). eapply number_accepted; eauto.
    - destruct rest; cbn; [auto|]. tauto.
    - intros ->. exact N.
  Qed.
  (** Numbers as the lexer takes them: the token is the longest one, exactly its runes are consumed. *)
  Theorem C55_accepted it i f x rest e : lex_number i f x -> yields (next fn) it ((i ++ f ++ x) ++ rest) e ->
    number_ends f x rest -> (rest = [] -> e = EOI) ->
    exists it', returns (lexNumber (next fn) unread) it (mkTok tNumber (i ++ f ++ x), None) it' /\ yields (next fn) it' rest e.
  Proof. intros. eapply number_accepted; eauto. Qed.
  (** Everything else that starts with a digit or a minus sign is an error. *)
  Theorem C55_rejected it l e : yields (next fn) it l e -> digitc (hd 0 l) \/ hd 0 l = 45 ->
    ~ (exists i f x rest, l = (i ++ f ++ x) ++ rest /\ lex_number i f x /\ number_ends f x rest /\ (rest = [] -> e = EOI)) ->
    exists e' it', returns (lexNumber (next fn) unread) it (zv, Some e') it'.
  Proof. apply number_rejected. Qed.
End C55.
(** The numbers taken are those of RFC 8259 and, the one deviation, numbers that start with -0 and another digit. *)
Theorem C55_deviation i f x : lex_number i f x -> json_number (i ++ f ++ x) \/ exists d r, i ++ f ++ x = 45 :: 48 :: d :: r /\ digitc d.
Proof. apply lex_number_json. Qed.
Theorem C55_superset s : json_number s -> exists i f x, s = i ++ f ++ x /\ lex_number i f x.
Proof. apply json_number_lex. Qed.
(** Finding: "-01" is not a JSON number, and is accepted. *)
Theorem C55_negative_zero_refuted : ~ json_number [45; 48; 49] /\
  settles (Parse string_reader [91; 45; 48; 49; 93]) (mkV TArray (of4u [mkV TNumber (of4v [45; 48; 49])]), None).
Proof.
  split.
  - intros (sg & i & f & x & E & SG & IP & FP & XP). destruct SG as [|]; destruct IP as [|d ds HD FD]; cbn in E; try discriminate.
    + inversion E. subst. lia.
    + inversion E as [E1]. destruct FP as [|ds DS]; cbn in E1; [|discriminate]. destruct XP as [|c sg ds [-> | ->] ? ?]; cbn in E1; discriminate.
    + inversion E. subst. lia.
  - apply (ascii_accepts [91; 45; 48; 49; 93] [tokOBracket; mkTok tNumber [45; 48; 49]; tokCBracket] (JArr [JNum [45; 48; 49]]) []).
    + ascii.
    + punct. apply (tz_tok EOI [45; 48; 49]); [|punct; constructor].
      apply (fd_number EOI [45; 48; 49] [] [] [93]); [|cbn; unfold digitc; lia|discriminate].
      apply (ln_neg [48; 49]); [|constructor|constructor]. split; [discriminate|repeat constructor; unfold digitc; lia].
    + apply g_arr; [reflexivity|discriminate|]. apply (ge_last false [mkTok tNumber [45; 48; 49]]); [constructor|reflexivity].
    + exact Logic.I.
Qed.
(** The hypotheses are met: 10e+5 followed by a bracket. *)
Example C55_nonvacuous : json_number [49; 48; 101; 43; 53] /\
  yields (next (runes_gen string_reader)) (ofIter (runes_init [49; 48; 101; 43; 53; 93])) ([49; 48; 101; 43; 53] ++ [93]) EOI /\
  ~ (exists i f x rest, [48; 49] = (i ++ f ++ x) ++ rest /\ lex_number i f x /\ number_ends f x rest /\ (rest = [] -> EOI = EOI)).
Proof.
  split; [|split].
  - exists [], [49; 48], [], [101; 43; 53]. split; [reflexivity|]. split; [constructor|]. split; [apply (int_nonzero 49 [48]); [lia|repeat constructor; unfold digitc; lia]|].
    split; [constructor|]. apply (exp_some 101 [43] [53]); auto. split; [discriminate|repeat constructor; unfold digitc; lia].
  - apply ascii_reads. ascii.
  - intros (i & f & x & rest & E & LN & NN & _).
    destruct LN as [i f x IP FP XP|ds f x [ND FD] FP XP]; [|discriminate].
    destruct IP as [|d ds HD FD]; [|inversion E; lia]. cbn in E. inversion E as [E1].
    destruct FP as [|ds DS]; [|discriminate]. destruct XP as [|c sg ds [-> | ->] ? ?]; try discriminate. cbn in E1. subst rest. cbn in NN. unfold digitc in NN. lia.
Qed.

(** ** C56: strings *)
Lemma utf8_string s : Forall scalar s -> string_of_runes s = utf8 s.
Proof.
  exact (string_of_scalars s).
Qed.
Section C56.
  Context {S : Type} (fn : stepfn S Z).   (* any source of runes *)

  (** A string literal whose characters are spelled in any of the ways RFC 8259 allows, except the double quote as a 16 bit
      unit, is read whole; the token carries the UTF-8 of the characters. *)
  Theorem C56_strings it parts s rest e : Forall2 spelled parts s -> Forall scalar s -> (forall u, In u parts -> ~ unit_escape u 34) ->
    yields (next fn) it ([34] ++ concat parts ++ [34] ++ rest) e ->
    exists it', returns (lexString (next fn)) it (mkTok tString (utf8 s), None) it' /\ yields (next fn) it' rest e.
  Proof.
    intros F SC NU Y. rewrite <- utf8_string by auto. eapply string_accepted; [exact Y| |constructor].
    clear Y SC. induction F as [|u c parts s U F IH]; constructor; [|apply IH; intros; apply NU; right; auto].
    constructor; auto. intros ->. assert (N := NU u (or_introl eq_refl)). inversion U; subst; auto; try lia.
    - exfalso. apply N. assumption.
    - exfalso. unfold pair_value, high_surrogate, low_surrogate in *. lia.
  Qed.
  (** Strings as the lexer takes them, and the rejection of everything else that starts with a double quote. *)
  Theorem C56_accepted it parts s u rest e : Forall2 lex_spelled parts s -> lex_end u -> yields (next fn) it ([34] ++ concat parts ++ u ++ rest) e ->
    exists it', returns (lexString (next fn)) it (mkTok tString (string_of_runes s), None) it' /\ yields (next fn) it' rest e.
  Proof. intros F U Y. exact (string_accepted fn it parts s u rest e Y F U). Qed.
  Theorem C56_rejected it l e : yields (next fn) it (34 :: l) e ->
    ~ (exists parts s u rest, l = concat parts ++ u ++ rest /\ Forall2 lex_spelled parts s /\ lex_end u) ->
    exists e' it', returns (lexString (next fn)) it (zv, Some e') it'.
  Proof. apply string_rejected. Qed.
End C56.
Lemma hexdigit_range c d : hexdigit c d -> 0 <= d <= 15.
Proof. destruct 1; lia. Qed.
Lemma hexdigit_value c d : hexdigit c d -> c = 48 + d /\ d <= 9 \/ c = 55 + d /\ 10 <= d \/ c = 87 + d /\ 10 <= d.
Proof. destruct 1; lia. Qed.
(** In particular a raw control character and an unterminated string are errors. *)
Lemma unit_escape_chars u n : unit_escape u n -> exists a b c d, u = [92; 117; a; b; c; d] /\ 32 <= a /\ 32 <= b /\ 32 <= c /\ 32 <= d /\ a <> 34 /\ b <> 34 /\ c <> 34 /\ d <> 34.
Proof.
  destruct 1 as [c1 c2 c3 c4 d1 d2 d3 d4 A B C D]. exists c1, c2, c3, c4. split; auto.
  destruct A, B, C, D; lia.
Qed.
Lemma spelled_chars u c : lex_spelled u c -> u <> [] /\ Forall (fun c => 32 <= c) u.
Proof.
  destruct 1 as [u c U _|u1 n1 u2 n2 U1 U2 _ _].
  - destruct U as [c C _ _| | | | | | | | |u n U _ _|u1 n1 u2 n2 U1 U2 _ _]; try (split; [discriminate|repeat constructor; lia]).
    + destruct (unit_escape_chars _ _ U) as (a & b & c & d & -> & H). split; [discriminate|]. repeat (constructor; [lia|]). constructor.
    + destruct (unit_escape_chars _ _ U1) as (a & b & c & d & -> & H). destruct (unit_escape_chars _ _ U2) as (a2 & b2 & c2 & d2 & -> & H2). split; [discriminate|]. cbn.
      repeat (constructor; [lia|]). constructor.
  - destruct (unit_escape_chars _ _ U1) as (a & b & c & d & -> & H). destruct (unit_escape_chars _ _ U2) as (a2 & b2 & c2 & d2 & -> & H2). split; [discriminate|]. cbn.
    repeat (constructor; [lia|]). constructor.
Qed.
Theorem C56_control_character {S} (fn : stepfn S Z) it s c rest e : plain_string s -> c < 32 -> yields (next fn) it ([34] ++ s ++ c :: rest) e ->
  exists e' it', returns (lexString (next fn)) it (zv, Some e') it'.
Proof.
  intros PS C Y. eapply C56_rejected; [exact Y|]. intros (parts & s' & u & rest' & E & F & U).
  assert (K : forall s, plain_string s -> forall parts s' u rest', Forall2 lex_spelled parts s' -> lex_end u -> s ++ c :: rest = concat parts ++ u ++ rest' -> False); [|eapply K; eauto].
  clear - C. induction 1 as [|a s A PS IH]; intros parts s' u rest' F U E.
  - assert (NE : forall v w, v <> [] -> Forall (fun c => 32 <= c) v -> c :: rest = v ++ w -> False).
    { intros [|x v] w NE FA Q; [congruence|]. inversion Q. subst. inversion FA. lia. }
    destruct F as [|v d parts s' V F].
    + cbn in E. destruct U as [|u U]; [eapply (NE [34]); [discriminate|repeat constructor; lia|exact E]|].
      destruct (unit_escape_chars _ _ U) as (a & b & c' & d & -> & H). cbn in E. inversion E. lia.
    + cbn in E. rewrite <- app_assoc in E. destruct (spelled_chars _ _ V). eapply NE; eauto.
  - destruct A as (SA & A1 & A2 & A3). cbn in E. destruct F as [|v d parts s' V F].
    + cbn in E. destruct U as [|u U]; [inversion E; congruence|]. destruct (unit_escape_chars _ _ U) as (a' & b & c' & d & -> & H). inversion E. congruence.
    + assert (v = [a] \/ exists v', v = 92 :: v') as [->|(v' & ->)].
      { clear - V E. cbn in E. destruct V as [v c0 VV _|u1 n1 u2 n2 U1 U2 _ _].
        - destruct VV as [c0 C0 _ _| | | | | | | | |v n VU _ _|u1 n1 u2 n2 U1 U2 _ _]; try (right; eexists; reflexivity); [inversion E; auto| |].
          + destruct VU; right; eexists; reflexivity.
          + destruct U1; right; eexists; reflexivity.
        - destruct U1; right; eexists; reflexivity. }
      * cbn in E. inversion E. eapply IH; eauto.
      * cbn in E. inversion E. congruence.
Qed.
(** Finding: the escape of the double quote as a 16 bit unit ends the string: in the (legal) literal
    double quote, backslash u 0022, double quote, the lexer finds the empty string and leaves a double quote behind. *)
Theorem C56_unit_quote_refuted :
  Forall2 spelled [[92; 117; 48; 48; 50; 50]] [34] /\
  forall (S : Type) (fn : stepfn S Z) it rest e, yields (next fn) it ([34] ++ [92; 117; 48; 48; 50; 50] ++ [34] ++ rest) e ->
    exists it', returns (lexString (next fn)) it (mkTok tString [], None) it' /\ yields (next fn) it' (34 :: rest) e.
Proof.
  assert (U : unit_escape [92; 117; 48; 48; 50; 50] 34).
  { apply (ue 48 48 50 50 0 0 2 2); [apply (hex_09 0)|apply (hex_09 0)|apply (hex_09 2)|apply (hex_09 2)]; lia. }
  split.
  - constructor; [|constructor]. apply sp_unit; [exact U|unfold high_surrogate; lia|unfold low_surrogate; lia].
  - intros S fn it rest e Y. apply (C56_accepted fn it [] [] [92; 117; 48; 48; 50; 50] (34 :: rest) e); [constructor|constructor; exact U|exact Y].
Qed.
(** Finding: a surrogate pair in the wrong order is taken for the character of the right order. *)
Theorem C56_reversed_surrogates {S} (fn : stepfn S Z) it u1 n1 u2 n2 rest e : unit_escape u1 n1 -> unit_escape u2 n2 -> low_surrogate n1 -> high_surrogate n2 ->
  yields (next fn) it ([34] ++ u1 ++ u2 ++ [34] ++ rest) e ->
  exists it', returns (lexString (next fn)) it (mkTok tString (utf8 [pair_value n2 n1]), None) it' /\ yields (next fn) it' rest e.
Proof.
  intros U1 U2 L H Y. rewrite <- utf8_string.
  - apply (C56_accepted fn it [u1 ++ u2] [pair_value n2 n1] [34] rest e).
    + constructor; [apply ls_reversed; auto|constructor].
    + constructor.
    + cbn [concat]. rewrite app_nil_r, <- app_assoc. exact Y.
  - constructor; [|constructor]. unfold scalar, pair_value, low_surrogate, high_surrogate in *. lia.
Qed.
(** The hypotheses are met by: e with acute as a 16 bit unit, an emoji as a surrogate pair, a newline, a letter. *)
Example C56_nonvacuous : let parts := [[92; 117; 48; 48; 69; 57]; [92; 117; 100; 56; 51; 100] ++ [92; 117; 68; 69; 48; 48]; [92; 110]; [97]] in let s := [233; 128512; 10; 97] in
  Forall2 spelled parts s /\ Forall scalar s /\ (forall u, In u parts -> ~ unit_escape u 34) /\
  yields (next (runes_gen string_reader)) (ofIter (runes_init ([34] ++ concat parts ++ [34]))) ([34] ++ concat parts ++ [34] ++ []) EOI /\
  utf8 s = [195; 169; 240; 159; 152; 128; 10; 97].
Proof.
  assert (A : unit_escape [92; 117; 48; 48; 69; 57] 233) by (apply (ue 48 48 69 57 0 0 14 9); [apply (hex_09 0)|apply (hex_09 0)|apply (hex_AF 14)|apply (hex_09 9)]; lia).
  assert (B : unit_escape [92; 117; 100; 56; 51; 100] 55357) by (apply (ue 100 56 51 100 13 8 3 13); [apply (hex_af 13)|apply (hex_09 8)|apply (hex_09 3)|apply (hex_af 13)]; lia).
  assert (C : unit_escape [92; 117; 68; 69; 48; 48] 56832) by (apply (ue 68 69 48 48 13 14 0 0); [apply (hex_AF 13)|apply (hex_AF 14)|apply (hex_09 0)|apply (hex_09 0)]; lia).
  intros parts s. split; [|split; [|split; [|split]]].
  - constructor; [apply sp_unit; [exact A|unfold high_surrogate; lia|unfold low_surrogate; lia]|].
    constructor; [apply (sp_pair _ 55357 _ 56832 B C); [unfold high_surrogate; lia|unfold low_surrogate; lia]|].
    constructor; [constructor|]. constructor; [constructor; lia|constructor].
  - repeat constructor; unfold scalar; lia.
  - intros u [<-|[<-|[<-|[<-|[]]]]] N; inversion N as [c1 c2 c3 c4 d1 d2 d3 d4 H1 H2 H3 H4 E1 E2].
    subst. destruct (hexdigit_range _ _ H1), (hexdigit_range _ _ H2), (hexdigit_range _ _ H4). pose proof (hexdigit_value _ _ H3). lia.
  - apply ascii_reads. cbn. ascii.
  - reflexivity.
Qed.

(** ** C57: Write, and Parse after Write *)
(** Write puts the compact text of the value into the writer, rune by rune, and stops at the first error, which it returns;
    [fn] is any writer. *)
Theorem C57_text {W} (fn : W -> Z -> option err * W) t w : encodable t ->
  write_json (write fn) (value_of (tree_of t)) w = Done (write fn w (render t)).
Proof. intros. apply write_render; auto. Qed.
(** WriteObject and WriteArray do the same for objects and arrays; for other values they write the opening bracket and panic, unless
    that write fails. *)
Theorem C57_containers {W} (fn : W -> Z -> option err * W) t w : encodable t ->
  ((exists m, t = RObj m) -> write_object (write fn) (value_of (tree_of t)) w = Done (write fn w (render t))) /\
  ((exists l, t = RArr l) -> write_array (write fn) (value_of (tree_of t)) w = Done (write fn w (render t))) /\
  (~ (exists m, t = RObj m) -> forall e w', fn w 123 = (e, w') ->
     write_object (write fn) (value_of (tree_of t)) w = match e with Some e => Done (Some e, w') | None => Panicked end) /\
  (~ (exists l, t = RArr l) -> forall e w', fn w 91 = (e, w') ->
     write_array (write fn) (value_of (tree_of t)) w = match e with Some e => Done (Some e, w') | None => Panicked end).
Proof.
  intros En. split; [|split; [|split]].
  - intros [m ->]. rewrite <- (C57_text fn _ w En). reflexivity.
  - intros [l ->]. rewrite <- (C57_text fn _ w En). reflexivity.
  - intros N e w' E. unfold write_object. replace (jtype_eqb (typ_of (value_of (tree_of t))) TObject) with false by (destruct t; try reflexivity; elim N; eauto).
    unfold write. cbn. rewrite E. destruct e; reflexivity.
  - intros N e w' E. unfold write_array. replace (jtype_eqb (typ_of (value_of (tree_of t))) TArray) with false by (destruct t; try reflexivity; elim N; eauto).
    unfold write. cbn. rewrite E. destruct e; reflexivity.
Qed.
(** That text is a document of RFC 8259 for the value, when strings need no escapes, numbers are JSON numbers and the keys of
    objects are distinct. *)
Theorem C57_text_is_json t : writable t -> rcontainer t -> exists toks, gval true toks (tree_of t) /\ lexed (render t) toks [].
Proof. apply render_strict. Qed.
(** Round trip, for every depth and every order of the members: what Write puts into a buffer, Parse turns back into the value. *)
Theorem C57_round_trip t : writable t -> rcontainer t ->
  exists bs, write_json (write (rune_writer buffer_writer)) (value_of (tree_of t)) [] = Done (None, bs) /\
    settles (Parse string_reader bs) (value_of (tree_of t), None).
Proof. apply round_trip. Qed.
(** Finding: strings are written without escapes: a double quote in a string ends it. The array of the one string
    quote comma quote is read back as the array of two empty strings. *)
Theorem C57_escaping_refuted : exists bs,
  write_json (write (rune_writer buffer_writer)) (value_of (JArr [JStr [34; 44; 34]])) [] = Done (None, bs) /\
  settles (Parse string_reader bs) (value_of (JArr [JStr []; JStr []]), None).
Proof.
  exists [91; 34; 34; 44; 34; 34; 93]. split; [vm_compute; reflexivity|].
  apply (ascii_accepts _ [tokOBracket; mkTok tString []; tokComma; mkTok tString []; tokCBracket] (JArr [JStr []; JStr []]) []); [ascii| | |exact Logic.I].
  - punct. apply (tz_tok EOI ([34] ++ concat [] ++ [34])); [apply (fd_string EOI [] []); constructor|].
    punct. apply (tz_tok EOI ([34] ++ concat [] ++ [34])); [apply (fd_string EOI [] []); constructor|]. punct. constructor.
  - apply g_arr; [reflexivity|discriminate|]. apply (ge_more false [mkTok tString []]); [constructor|reflexivity|].
    apply (ge_last false [mkTok tString []]); [constructor|reflexivity].
Qed.
(** Finding: the zero (invalid) Value is written as null. *)
Theorem C57_invalid {W} (dst : W -> list Z -> option err * W) w : write_json dst (value_of JInvalid) w = write_json dst (value_of JNull) w.
Proof. reflexivity. Qed.
Example C57_nonvacuous :
  let t := RObj [([233], RArr [RNum [45; 49]; RNull; RBool true]); ([98], RStr [128512])] in
  writable t /\ rcontainer t /\ render t = [123; 34; 233; 34; 58; 91; 45; 49; 44; 110; 117; 108; 108; 44; 116; 114; 117; 101; 93; 44; 34; 98; 34; 58; 34; 128512; 34; 125].
Proof.
  intros t. split; [|split; [exact Logic.I|reflexivity]]. apply w_obj.
  - repeat constructor; cbn; intuition discriminate.
  - intros k u [E|[E|[]]]; inversion E; subst; (split; [repeat constructor; unfold scalar; lia|]).
    + apply w_arr. intros u [<-|[<-|[<-|[]]]]; constructor.
      exists [45], [49], [], []. split; [reflexivity|]. split; [constructor|]. split; [constructor; [lia|constructor]|]. split; constructor.
    + constructor. repeat constructor; unfold scalar; lia.
Qed.

(** ** C58: Parse *)
Section C58.
  Context {S : Type} (rd : reader S).   (* any io.Reader; [reads] says what text and error it delivers *)

  (** Exactly these texts are accepted, with exactly this value: a sequence of tokens that the (lenient) grammar derives for
      an object or array, whatever comes after it. *)
  Theorem C58_exact s text e v : reads rd s text e ->
    (settles (Parse rd s) (v, None) <->
     exists toks t rest, tokenized e text toks rest /\ gval false toks t /\ container t /\ v = value_of t).
  Proof.
    intros R. split.
    - intros P. destruct (parse_total rd s text e R) as [(e' & Q)|(toks & t & rest & TZ & G & C & Q)]; pose proof (settles_det _ _ _ P Q) as E; inversion E.
      exists toks, t, rest. auto.
    - intros (toks & t & rest & TZ & G & C & ->). eapply parse_accepts; eauto.
  Qed.
  (** Every document of RFC 8259 (with distinct keys) is accepted. *)
  Theorem C58_strict s text e toks t rest : reads rd s text e -> lexed text toks rest -> gval true toks t -> container t ->
    settles (Parse rd s) (value_of t, None).
  Proof. intros R LX G C. eapply parse_accepts; eauto. apply lexed_tokenized. exact LX. Qed.
  (** On every text Parse comes back, without a panic: with a value, or with the zero Value and an error. *)
  Theorem C58_total s text e : reads rd s text e ->
    (exists v, settles (Parse rd s) (v, None)) \/ (exists e', settles (Parse rd s) (zv, Some e')).
  Proof. intros R. destruct (parse_total rd s text e R) as [H|(toks & t & rest & _ & _ & _ & Q)]; eauto. Qed.
  (** No object in the result has a key twice. *)
  Theorem C58_distinct_keys s text e v : reads rd s text e -> settles (Parse rd s) (v, None) -> exists t, v = value_of t /\ every keys_distinct t /\ container t.
  Proof. intros R P. apply (C58_exact s text e v R) in P as (toks & t & rest & _ & G & C & ->). exists t. split; auto. split; auto. eapply grammar_keys; eauto. Qed.

  Lemma no_reject s text e : reads rd s text e -> ~ (exists toks t rest, tokenized e text toks rest /\ gval false toks t /\ container t) ->
    exists e', settles (Parse rd s) (zv, Some e').
  Proof. intros R N. destruct (parse_total rd s text e R) as [H|(toks & t & rest & A & B & C & _)]; auto. exfalso. apply N. eauto 6. Qed.
  Lemma comparable e text toks rest toks' rest' : tokenized e text toks rest -> tokenized e text toks' rest' ->
    exists more more' e1, toks ++ more = toks' ++ more' /\ Forall tok_ok (toks ++ more) /\ lexes e rest more e1.
  Proof.
    intros A B. destruct (lexes_total e rest) as (ts & e1 & LX & _). destruct (lexes_total e rest') as (ts' & e2 & LX' & _).
    pose proof (tokenized_lexes _ _ _ _ _ _ A LX) as L1. pose proof (tokenized_lexes _ _ _ _ _ _ B LX') as L2.
    exists ts, ts', e1. split; [exact (proj1 (lexes_det _ _ _ _ _ _ L1 L2))|]. split; [eapply lexes_ok; eauto|exact LX].
  Qed.
  (** Rejected: a fault in the structure at any depth, whatever follows. *)
  Theorem C58_broken s text e toks rest : reads rd s text e -> tokenized e text toks rest -> broken toks -> exists e', settles (Parse rd s) (zv, Some e').
  Proof.
    intros R TZ B. eapply no_reject; [exact R|]. intros (toks' & t & rest' & TZ' & G & C).
    destruct (comparable _ _ _ _ _ _ TZ TZ') as (more & more' & e1 & E & OK & _). exact (broken_dead toks B toks' t more more' G OK E).
  Qed.
  (** Rejected: a document that stops early, because the text ends or goes on with something that is no token. *)
  Theorem C58_unfinished s text e toks rest more t : reads rd s text e -> tokenized e text toks rest ->
    (forall tk rest', ~ tokenized e rest [tk] rest') -> gval false (toks ++ more) t -> more <> [] -> Forall (fun tk => ttyp tk <> tNumber /\ ttyp tk <> tBoolean) more ->
    exists e', settles (Parse rd s) (zv, Some e').
  Proof.
    intros R TZ NT G NE NN. eapply no_reject; [exact R|]. intros (toks' & t' & rest' & TZ' & G' & C).
    destruct (comparable _ _ _ _ _ _ TZ TZ') as (m & m' & e1 & E & OK & LX).
    assert (m = []) as ->.
    { destruct (lexes_tokenized _ _ _ _ LX) as (r2 & T2 & _). destruct m as [|tk m]; auto. destruct (tokenized_prefix _ _ [tk] m _ T2) as (mid & A & _). exfalso. eapply NT; eauto. }
    rewrite app_nil_r in *.
    assert (toks ++ more = toks').
    { apply (prefix_free (toks ++ more) t [] toks' t' (m' ++ more)); auto.
      - rewrite app_nil_r, app_assoc, <- E. reflexivity.
      - rewrite app_nil_r. apply Forall_app. split; auto. eapply Forall_impl; [|exact NN]. intros tk [N1 N2]. unfold tok_ok. destruct (ttyp tk); auto; congruence. }
    subst toks'. apply (f_equal (@length token)) in E. rewrite !app_length in E. destruct more; [congruence|cbn in E; lia].
  Qed.
  (** Rejected: a text that does not start with an object or array; a text without a token. *)
  Theorem C58_container_required s text e tk rest : reads rd s text e -> tokenized e text [tk] rest -> ttyp tk <> tOBrace -> ttyp tk <> tOBracket ->
    exists e', settles (Parse rd s) (zv, Some e').
  Proof.
    intros R TZ N1 N2. eapply no_reject; [exact R|]. intros (toks' & t' & rest' & TZ' & G' & C).
    destruct (comparable _ _ _ _ _ _ TZ TZ') as (m & m' & e1 & E & _). destruct (container_open _ _ _ G' C) as (o & r & -> & O).
    inversion E; subst. destruct O; congruence.
  Qed.
  Theorem C58_empty s text e : reads rd s text e -> (forall tk rest, ~ tokenized e text [tk] rest) -> exists e', settles (Parse rd s) (zv, Some e').
  Proof.
    intros R N. eapply no_reject; [exact R|]. intros (toks' & t' & rest' & TZ' & G' & C). destruct (container_open _ _ _ G' C) as (o & r & -> & O).
    destruct (tokenized_prefix _ _ [o] r _ TZ') as (mid & A & _). eapply N; eauto.
  Qed.
End C58.
(** Findings: a comma after the last member is accepted, stray tokens are accepted as (invalid) values, and what comes after the
    document is not looked at. *)
Theorem C58_trailing_comma_refuted : settles (Parse string_reader [123; 34; 97; 34; 58; 49; 44; 125]) (value_of (JObj [([97], JNum [49])]), None).
Proof.
  apply (ascii_accepts _ [tokOBrace; mkTok tString [97]; tokColon; mkTok tNumber [49]; tokComma; tokCBrace] (JObj [([97], JNum [49])]) []); [ascii| | |exact Logic.I].
  - punct. apply (tz_tok EOI ([34] ++ concat [[97]] ++ [34])).
    { apply (fd_string EOI [[97]] [97]); [|constructor]. constructor; [|constructor]. constructor; [constructor; lia|lia]. }
    punct. apply (tz_tok EOI [49]).
    { apply (fd_number EOI [49] [] []); [|cbn; unfold digitc; lia|discriminate]. constructor; constructor; [lia|constructor]. }
    punct. punct. constructor.
  - apply g_obj; [reflexivity|]. apply (gm_comma false [] [97] tokColon [mkTok tNumber [49]] (JNum [49]) tokComma tokCBrace); auto. constructor.
Qed.
Theorem C58_stray_refuted : settles (Parse string_reader [91; 58; 44; 44; 93]) (value_of (JArr [JInvalid; JInvalid]), None).
Proof.
  apply (ascii_accepts _ [tokOBracket; tokColon; tokComma; tokComma; tokCBracket] (JArr [JInvalid; JInvalid]) []); [ascii|repeat punct; constructor| |exact Logic.I].
  apply g_arr; [reflexivity|discriminate|].
  apply (ge_more false [tokColon]); [apply g_stray; [reflexivity|unfold stray; auto]|reflexivity|].
  apply (ge_last false [tokComma]); [apply g_stray; [reflexivity|unfold stray; auto]|reflexivity].
Qed.
Theorem C58_trailing_text_refuted rest : Forall (fun c => 0 <= c < 128) rest -> settles (Parse string_reader (91 :: 93 :: rest)) (value_of (JArr []), None).
Proof.
  intros A. apply (ascii_accepts _ [tokOBracket; tokCBracket] (JArr []) rest); [|punct; punct; constructor| |exact Logic.I].
  - constructor; [lia|]. constructor; [lia|exact A].
  - apply g_arr0; reflexivity.
Qed.
(** The hypotheses are met: an object with a number followed by a string, two levels down. *)
Example C58_nonvacuous : let text := [91; 123; 34; 97; 34; 58; 49; 34; 98; 34] in
  let toks := [tokOBracket; tokOBrace; mkTok tString [97]; tokColon; mkTok tNumber [49]; mkTok tString [98]] in
  reads string_reader text text EOI /\ tokenized EOI text toks [] /\ broken toks.
Proof.
  intros text toks. split; [apply ascii_reads; ascii|]. split.
  - unfold text, toks. punct. punct. apply (tz_tok EOI ([34] ++ concat [[97]] ++ [34])).
    { apply (fd_string EOI [[97]] [97]); [|constructor]. constructor; [|constructor]. constructor; [constructor; lia|lia]. }
    punct. apply (tz_tok EOI [49]).
    { apply (fd_number EOI [49] [] []); [|cbn; unfold digitc; lia|discriminate]. constructor; constructor; [lia|constructor]. }
    apply (tz_tok EOI ([34] ++ concat [[98]] ++ [34])); [|constructor].
    apply (fd_string EOI [[98]] [98]); [|constructor]. constructor; [|constructor]. constructor; [constructor; lia|lia].
  - apply (br_arr_in []); [right; reflexivity|]. apply (br_obj_sep [] [97] [mkTok tNumber [49]] (JNum [49]) (mkTok tString [98])); [constructor|constructor|discriminate|discriminate].
Qed.

(** ** C59: Values and Go values *)
(** ToMap, ToSlice and ToAny give the Go value of the tree. *)
Theorem C59_to_any t : every keys_distinct t -> toAny (value_of t) = Done (any_of t).
Proof. apply toAny_tree. Qed.
(** MapToValue and SliceToValue give the Value of the tree; number strings must contain a digit. *)
Theorem C59_to_value t : every keys_distinct t -> every has_digit t -> every not_invalid t -> toValue (any_of t) = Done (value_of t, None).
Proof. apply toValue_tree. Qed.
(** Both ways. *)
Theorem C59_round_trip t : every keys_distinct t -> every has_digit t -> every not_invalid t ->
  exists v, toValue (any_of t) = Done (v, None) /\ toAny v = Done (any_of t).
Proof. intros A B C. exists (value_of t). split; [apply toValue_tree; auto|apply toAny_tree; auto]. Qed.
(** Whatever is converted without an error is a well-formed Value: of a tree with distinct keys. *)
Theorem C59_well_formed a v : toValue a = Done (v, None) -> exists t, v = value_of t /\ every keys_distinct t.
Proof. apply toValue_good. Qed.
(** The accessors: each gives the content of a Value of its type (AsString also that of a number, and the word of a boolean), and
    panics on any other. *)
Theorem C59_accessors t :
  asMap (value_of t) = match t with JObj m => Done (map (fun kv => (fst kv, value_of (snd kv))) m) | _ => Panicked end /\
  asSlice (value_of t) = match t with JArr l => Done (map value_of l) | _ => Panicked end /\
  asNumber (value_of t) = match t with JNum s => Done s | _ => Panicked end /\
  asBool (value_of t) = match t with JBool b => Done b | _ => Panicked end /\
  asString (value_of t) = match t with JStr s | JNum s => Done s | JBool true => Done [116; 114; 117; 101] | JBool false => Done [102; 97; 108; 115; 101] | _ => Panicked end /\
  isNull (value_of t) = match t with JNull => true | _ => false end /\
  isDocument (value_of t) = match t with JObj _ | JArr _ => true | _ => false end.
Proof. destruct t as [m|l|s|s|[|]| |]; repeat split; reflexivity. Qed.
(** ToMap and ToSlice panic on anything but an object and an array, respectively. *)
Theorem C59_to_map_slice t : every keys_distinct t ->
  toMap (value_of t) = match t with JObj _ => Done (any_of t) | _ => Panicked end /\
  toSlice (value_of t) = match t with JArr _ => Done (any_of t) | _ => Panicked end.
Proof. intros K. pose proof (toAny_tree t K) as H. destruct t as [m|l|s|s|[|]| |]; split; try reflexivity; exact H. Qed.
(** Findings: any NumberString with a digit in it is taken for a number; a value of another string type panics; the zero
    Value becomes nil, which becomes the null Value. *)
Theorem C59_number_refuted a d b : 48 <= d <= 57 -> toValue (ANumString (a ++ d :: b)) = Done (value_of (JNum (a ++ d :: b)), None).
Proof.
  intros D. apply (toValue_tree (JNum (a ++ d :: b))); apply every_leaf; cbn; auto; [|discriminate]. exists d. split; auto. apply in_or_app. right. left. auto.
Qed.
Theorem C59_named_string_refuted s : toValue (ANamedString s) = Panicked.
Proof. reflexivity. Qed.
Theorem C59_invalid_refuted : exists a v, toAny (value_of JInvalid) = Done a /\ toValue a = Done (v, None) /\ v <> value_of JInvalid.
Proof. exists ANil, nullValue. split; [reflexivity|]. split; [reflexivity|discriminate]. Qed.
Example C59_nonvacuous : let t := JObj [([97], JArr [JNum [49]; JNull; JBool false]); ([98], JStr [])] in
  every keys_distinct t /\ every has_digit t /\ every not_invalid t.
Proof.
  assert (K : forall P : tree -> Prop, P (JObj [([97], JArr [JNum [49]; JNull; JBool false]); ([98], JStr [])]) -> P (JArr [JNum [49]; JNull; JBool false]) ->
    P (JNum [49]) -> P JNull -> P (JBool false) -> P (JStr []) -> every P (JObj [([97], JArr [JNum [49]; JNull; JBool false]); ([98], JStr [])])).
  { intros P A B C D E F. apply every_obj; auto. intros k t [Q|[Q|[]]]; inversion Q; subst; [|apply every_leaf; cbn; auto].
    apply every_arr; auto. intros t [<-|[<-|[<-|[]]]]; apply every_leaf; cbn; auto. }
  cbv zeta. split; [|split]; apply K; cbn; auto; try discriminate.
  - repeat constructor; cbn; intuition discriminate.
  - exists 49. split; [left; auto|lia].
Qed.

(** ** C60: paths *)
(** Exactly the texts of non-empty paths (keys and indexes that fit in an int) are accepted; the function returned leads to the
    sub-value, or to an error when there is none; it never panics. *)
Theorem C60_lookup p : p <> [] -> Forall step_ok p -> Forall step_fits p ->
  exists f, ParsePath (path_text p) = (Some f, None) /\
    forall t, f (value_of t) = Done (match subtree t p with Some t' => (value_of t', None) | None => (zv, Some errNoSuchPath) end).
Proof. intros NE OK FT. eexists. split; [apply parse_path_ok; auto|]. intros t. apply run_ok; auto. Qed.
Theorem C60_illegal s : ~ (exists p, p <> [] /\ Forall step_ok p /\ Forall step_fits p /\ s = path_text p) -> ParsePath s = (None, Some errIllegalPath).
Proof. apply parse_path_bad. Qed.
Example C60_nonvacuous : let p := [Key [97; 98]; Index [49; 48]; Key [99]] in
  p <> [] /\ Forall step_ok p /\ Forall step_fits p /\ path_text p = [46; 97; 98; 91; 49; 48; 93; 46; 99] /\
  subtree (JObj [([97; 98], JArr (repeat JNull 10 ++ [JObj [([99], JBool true)]]))]) p = Some (JBool true).
Proof.
  intros p. split; [discriminate|]. split; [|split; [|split; reflexivity]].
  - repeat constructor; cbn; try discriminate; intuition discriminate.
  - repeat constructor; cbn; discriminate.
Qed.

(** ** C71: Iterate *)
(** Iterate delivers what Parse returns: one object, or the elements of the array one by one; when Parse fails, so does the
    iterator, with the same error, after the elements before the fault. *)
Theorem C71_iterate {S} (rd : reader S) s text e : reads rd s text e ->
  exists it vs e', settles (Iterate rd s) it /\ yields (doc_next (tok_next rd) unread) it vs e' /\
    ((e' <> EOI /\ settles (Parse rd s) (zv, Some e')) \/
     (e' = EOI /\ exists v, settles (Parse rd s) (v, None) /\ ((typ_of v = TObject /\ vs = [v]) \/ v = mkV TArray (of4u vs)))).
Proof. apply iterate_agrees. Qed.
(** Over an array every element that is complete is delivered, whatever follows it in the text ... *)
Theorem C71_elements_before_fault {S} (rd : reader S) s text e toks l rest it vs e' : reads rd s text e -> tokenized e text toks rest -> array_so_far toks l ->
  settles (Iterate rd s) it -> yields (doc_next (tok_next rd) unread) it vs e' -> exists more, vs = map value_of l ++ more.
Proof. apply iterate_complete. Qed.
(** ... and when the iterator ends with an error, what it has delivered are the first elements of an array and nothing else. *)
Theorem C71_nothing_else {S} (rd : reader S) s text e it vs e' : reads rd s text e ->
  settles (Iterate rd s) it -> yields (doc_next (tok_next rd) unread) it vs e' -> e' <> EOI ->
  vs = [] \/ exists toks l rest, tokenized e text toks rest /\ array_so_far toks l /\ vs = map value_of l.
Proof. apply iterate_sound. Qed.
Example C71_nonvacuous : reads string_reader [91; 49; 44; 125] [91; 49; 44; 125] EOI.
Proof. apply ascii_reads. ascii. Qed.
(** The text of an array with a missing comma: the first element, an error. *)
Example C71_elements_nonvacuous : let text := [91; 34; 34; 91; 93] in reads string_reader text text EOI /\
  exists toks rest, tokenized EOI text toks rest /\ array_so_far toks [JStr []].
Proof.
  split; [apply ascii_reads; ascii|]. exists [tokOBracket; mkTok tString []], [91; 93]. split.
  - punct. apply (tz_tok EOI ([34] ++ concat [] ++ [34])); [apply (fd_string EOI [] []); constructor|]. constructor.
  - exists tokOBracket, [mkTok tString []]. repeat split; try discriminate. apply gs_one, g_str.
Qed.

Print Assumptions C55_json_numbers.
Print Assumptions C55_rejected.
Print Assumptions C55_negative_zero_refuted.
Print Assumptions C56_strings.
Print Assumptions C56_accepted.
Print Assumptions C56_rejected.
Print Assumptions C56_control_character.
Print Assumptions C57_text.
Print Assumptions C57_text_is_json.
Print Assumptions C57_round_trip.
Print Assumptions C57_escaping_refuted.
Print Assumptions C58_exact.
Print Assumptions C58_strict.
Print Assumptions C58_total.
Print Assumptions C58_distinct_keys.
Print Assumptions C58_broken.
Print Assumptions C58_unfinished.
Print Assumptions C58_container_required.
Print Assumptions C58_empty.
Print Assumptions C58_trailing_text_refuted.
Print Assumptions C59_round_trip.
Print Assumptions C59_well_formed.
Print Assumptions C60_lookup.
Print Assumptions C60_illegal.
Print Assumptions C71_iterate.
Print Assumptions C71_elements_before_fault.
Print Assumptions C71_nothing_else.
