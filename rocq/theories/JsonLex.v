(** Model of encoding/json/parse/lex.go.  Runes are Z; a Go string is its list of bytes.  The text of error messages is
    not modelled: one [err] per message.  Every loop takes the fuel that is also given to the calls of Next. *)
From Verif Require Import Base Iter Writer.
Open Scope go_scope.
Open Scope Z_scope.

(** encoding/json/parse/lex.go:13-28, tokenType; tEOF is never produced. *)
Inductive toktype : Set :=
  tOBracket | tCBracket | tOBrace | tCBrace | tComma | tColon | tString | tNumber | tBoolean | tNull.

(** encoding/json/parse/lex.go:45-48, token. *)
Record token := mkTok { ttyp : toktype; tval : list Z }.
(** the zero token has the type tOBracket, the first constant *)
Global Instance Zero_token : Zero token := mkTok tOBracket [].

(** encoding/json/parse/lex.go:51-61, token constants. *)
Definition tokOBracket := mkTok tOBracket [91].
Definition tokCBracket := mkTok tCBracket [93].
Definition tokOBrace := mkTok tOBrace [123].
Definition tokCBrace := mkTok tCBrace [125].
Definition tokComma := mkTok tComma [44].
Definition tokColon := mkTok tColon [58].
Definition text_true : list Z := [116; 114; 117; 101].
Definition text_false : list Z := [102; 97; 108; 115; 101].
Definition text_null : list Z := [110; 117; 108; 108].
Definition tokTrue := mkTok tBoolean text_true.
Definition tokFalse := mkTok tBoolean text_false.
Definition tokNull := mkTok tNull text_null.

(** encoding/json/parse/lex.go:31-42, the error messages, told apart by number. *)
Definition errIncompleteString := UserErr 301.
Definition errControlCharInString := UserErr 302.
Definition errIncompleteStringEscape := UserErr 303.
Definition errIllegalStringEscape := UserErr 304.
Definition errOneSurrogateEscape := UserErr 305.
Definition errSurrogateNonSurrogateEscape := UserErr 306.
Definition errSurrogateDecodeEscape := UserErr 307.
Definition errInvalidNumber := UserErr 308.
Definition errInvalidBooleanNull := UserErr 309.
Definition errInvalidChar := UserErr 310.

(** Go's conversion string([]rune) *)
Definition string_of_runes (l : list Z) : list Z := flat_map string_of_rune l.

(** if err == EOI { return an error of our own } ; return err *)
Definition eoi_or (mine : err) (e : err) : err := match e with EOI => mine | _ => e end.

Definition digit (c : Z) : bool := (48 <=? c) && (c <=? 57).

(** unicode/utf16 (Go standard library, trusted): IsSurrogate, DecodeRune *)
Definition is_surrogate (r : Z) : bool := (55296 <=? r) && (r <? 57344).
Definition decode_rune (r1 r2 : Z) : Z :=
  if (55296 <=? r1) && (r1 <? 56320) && (56320 <=? r2) && (r2 <? 57344)
  then (r1 - 55296) * 1024 + (r2 - 56320) + 65536 else 65533.

Section Lex.
  Context {I : Type}.
  Variable nx : stepfn I Z.       (* it.Next *)
  Variable un : I -> Z -> I.      (* it.Unread *)

  Definition zt : token := zv.

  (** encoding/json/parse/lex.go:72-95, the closure readUTF16Hex; [n] iterations of the for loop are left. *)
  Fixpoint read_hex (n : nat) (hexVal : Z) (fuel : nat) (i : I) : outcome (ret Z * I) :=
    match n with
    | O => Done ((hexVal, None), i)
    | S n' =>
        let! (r, i1) := nx fuel i in
        match r with
        | (_, Some e) => Done ((0, Some (eoi_or errIncompleteStringEscape e)), i1)
        | (val, None) =>
            if (48 <=? val) && (val <=? 57) then read_hex n' (hexVal * 16 + val - 48) fuel i1
            else if (65 <=? val) && (val <=? 70) then read_hex n' (hexVal * 16 + val - 65 + 10) fuel i1
            else if (97 <=? val) && (val <=? 102) then read_hex n' (hexVal * 16 + val - 97 + 10) fuel i1
            else Done ((0, Some errIllegalStringEscape), i1)
        end
    end.

  (** encoding/json/parse/lex.go:142-199, case 'u' of the switch: the value of the escape after backslash u. *)
  Definition lex_unicode : stepfn I Z := fun fuel i =>
    let! (r, i1) := read_hex 4 0 fuel i in
    match r with
    | (_, Some e) => Done ((0, Some e), i1)
    | (hexVal, None) =>
        if is_surrogate hexVal then
          let! (r, i2) := nx fuel i1 in
          match r with
          | (_, Some e) => Done ((0, Some (eoi_or errOneSurrogateEscape e)), i2)
          | (val, None) =>
              if negb (val =? 92) then Done ((0, Some errOneSurrogateEscape), i2) else
              let! (r, i3) := nx fuel i2 in
              match r with
              | (_, Some e) => Done ((0, Some (eoi_or errOneSurrogateEscape e)), i3)
              | (val, None) =>
                  if negb (val =? 117) then Done ((0, Some errOneSurrogateEscape), i3) else
                  let! (r, i4) := read_hex 4 0 fuel i3 in
                  match r with
                  | (_, Some e) => Done ((0, Some e), i4)
                  | (hexVal2, None) =>
                      if negb (is_surrogate hexVal2) then Done ((0, Some errSurrogateNonSurrogateEscape), i4) else
                      let c1 := decode_rune hexVal hexVal2 in
                      if c1 =? 65533 then
                        let c2 := decode_rune hexVal2 hexVal in
                        if c2 =? 65533 then Done ((0, Some errSurrogateDecodeEscape), i4)
                        else Done ((c2, None), i4)
                      else Done ((c1, None), i4)
                  end
              end
          end
        else Done ((hexVal, None), i1)
    end.

  (** encoding/json/parse/lex.go:128-201, the switch after a backslash, for the cases that go on to the end of the loop body:
      the value [val] gets, or the error. The case of an escaped double quote is in [str_loop]. *)
  Definition lex_escape (val : Z) : stepfn I Z := fun fuel i =>
    if val =? 92 then Done ((92, None), i)
    else if val =? 47 then Done ((47, None), i)
    else if val =? 98 then Done ((8, None), i)
    else if val =? 102 then Done ((12, None), i)
    else if val =? 110 then Done ((10, None), i)
    else if val =? 114 then Done ((13, None), i)
    else if val =? 116 then Done ((9, None), i)
    else if val =? 117 then lex_unicode fuel i
    else Done ((0, Some errIllegalStringEscape), i).

  (** encoding/json/parse/lex.go:102-214, the for loop of lexString. *)
  Fixpoint str_loop (fuel : nat) (str : list Z) (i : I) : outcome (ret token * I) :=
    match fuel with
    | O => OutOfFuel
    | S f =>
        let! (r, i1) := nx f i in
        match r with
        | (_, Some e) => Done ((zt, Some (eoi_or errIncompleteString e)), i1)
        | (val, None) =>
            if val <? 32 then Done ((zt, Some errControlCharInString), i1)
            else if val =? 92 then
              let! (r, i2) := nx f i1 in
              match r with
              | (_, Some e) => Done ((zt, Some (eoi_or errIncompleteStringEscape e)), i2)
              | (val, None) =>
                  if val =? 34 then str_loop f (str ++ [34]) i2
                  else
                    let! (r, i3) := lex_escape val f i2 in
                    match r with
                    | (_, Some e) => Done ((zt, Some e), i3)
                    | (val, None) =>
                        if val =? 34 then Done ((mkTok tString (string_of_runes str), None), i3)
                        else str_loop f (str ++ [val]) i3
                    end
              end
            else if val =? 34 then Done ((mkTok tString (string_of_runes str), None), i1)
            else str_loop f (str ++ [val]) i1
        end
    end.

  (** encoding/json/parse/lex.go:65-217, lexString. *)
  Definition lexString : stepfn I token := fun fuel i =>
    let! (_, i1) := nx fuel i in
    str_loop fuel [] i1.

  (** encoding/json/parse/lex.go:225-247, the closures die and tok of lexNumber. *)
  Definition num_die (oe : option err) (i : I) : outcome (ret token * I) :=
    Done ((zt, Some (match oe with Some EOI | None => errInvalidNumber | Some e => e end)), i).
  Definition num_tok (str : list Z) (val : Z) (oe : option err) (i : I) : outcome (ret token * I) :=
    Done ((mkTok tNumber (string_of_runes str), None), match oe with None => un i val | Some _ => i end).

  (** encoding/json/parse/lex.go:345-367, the digits of the exponent. *)
  Fixpoint num_exp_loop (fuel : nat) (str : list Z) (haveDigit : bool) (i : I) : outcome (ret token * I) :=
    match fuel with
    | O => OutOfFuel
    | S f =>
        let! (r, i1) := nx f i in
        match r with
        | (val, Some e) =>
            match e with
            | EOI => if haveDigit then num_tok str val (Some e) i1 else num_die (Some e) i1
            | _ => num_die (Some e) i1
            end
        | (val, None) =>
            if (48 <=? val) && (val <=? 57) then num_exp_loop f (str ++ [val]) true i1
            else if haveDigit then num_tok str val None i1
            else num_die None i1
        end
    end.
  (** encoding/json/parse/lex.go:331-343, after e or E. *)
  Definition num_exp (fuel : nat) (str : list Z) (i : I) : outcome (ret token * I) :=
    let! (r, i1) := nx fuel i in
    match r with
    | (_, Some e) => num_die (Some e) i1
    | (val, None) =>
        if (val =? 43) || (val =? 45) then num_exp_loop fuel (str ++ [val]) false i1
        else num_exp_loop fuel str false (un i1 val)
    end.
  (** encoding/json/parse/lex.go:292-329, after the dot. *)
  Fixpoint num_frac_loop (fuel : nat) (str : list Z) (haveDigit : bool) (i : I) : outcome (ret token * I) :=
    match fuel with
    | O => OutOfFuel
    | S f =>
        let! (r, i1) := nx f i in
        match r with
        | (val, Some e) =>
            match e with
            | EOI => if negb haveDigit then num_die (Some e) i1 else num_tok str val (Some e) i1
            | _ => Done ((zt, Some e), i1)
            end
        | (val, None) =>
            if (48 <=? val) && (val <=? 57) then num_frac_loop f (str ++ [val]) true i1
            else if (val =? 101) || (val =? 69) then
              if haveDigit then num_exp f (str ++ [val]) i1 else num_die None i1
            else if haveDigit then num_tok str val None i1
            else num_die None i1
        end
    end.
  (** encoding/json/parse/lex.go:252-290, digits up to the dot or e. *)
  Fixpoint num_int_loop (fuel : nat) (str : list Z) (haveDigit leadingZero : bool) (i : I) : outcome (ret token * I) :=
    match fuel with
    | O => OutOfFuel
    | S f =>
        let! (r, i1) := nx f i in
        match r with
        | (val, Some e) =>
            match e with
            | EOI => if negb haveDigit then num_die (Some e) i1 else num_tok str val (Some e) i1
            | _ => Done ((zt, Some e), i1)
            end
        | (val, None) =>
            if (48 <=? val) && (val <=? 57) then
              if leadingZero then num_die None i1
              else num_int_loop f (str ++ [val]) true leadingZero i1
            else if val =? 46 then
              if haveDigit then num_frac_loop f (str ++ [val]) false i1 else num_die None i1
            else if (val =? 101) || (val =? 69) then
              if haveDigit then num_exp f (str ++ [val]) i1 else num_die None i1
            else if haveDigit then num_tok str val None i1
            else num_die None i1
        end
    end.
  (** encoding/json/parse/lex.go:221-368, lexNumber. *)
  Definition lexNumber : stepfn I token := fun fuel i =>
    let! (r, i1) := nx fuel i in
    let val := fst r in
    num_int_loop fuel [val] (negb (val =? 45)) (val =? 48) i1.

  (** encoding/json/parse/lex.go:371-409, lexBooleanNull. *)
  Definition word_token (str : list Z) : ret token :=
    if list_eq_dec Z.eq_dec str text_true then (tokTrue, None)
    else if list_eq_dec Z.eq_dec str text_false then (tokFalse, None)
    else if list_eq_dec Z.eq_dec str text_null then (tokNull, None)
    else (zt, Some errInvalidBooleanNull).
  Fixpoint word_loop (fuel : nat) (str : list Z) (i : I) : outcome (ret token * I) :=
    match fuel with
    | O => OutOfFuel
    | S f =>
        let! (r, i1) := nx f i in
        match r with
        | (_, Some EOI) => Done (word_token str, i1)
        | (_, Some e) => Done ((zt, Some e), i1)
        | (val, None) =>
            if (97 <=? val) && (val <=? 122) then word_loop f (str ++ [val]) i1
            else Done (word_token str, un i1 val)
        end
    end.
  Definition lexBooleanNull : stepfn I token := fun fuel i => word_loop fuel [] i.

  (** encoding/json/parse/lex.go:425-434, skipping white space: the first rune after it. *)
  Fixpoint ws_loop (fuel : nat) (i : I) : outcome (ret Z * I) :=
    match fuel with
    | O => OutOfFuel
    | S f =>
        let! (r, i1) := nx f i in
        match r with
        | (_, Some e) => Done ((0, Some e), i1)
        | (val, None) =>
            if (val =? 32) || (val =? 10) || (val =? 13) || (val =? 9) then ws_loop f i1
            else Done ((val, None), i1)
        end
    end.

  (** encoding/json/parse/lex.go:413-463, lex. *)
  Definition lex : stepfn I token := fun fuel i =>
    let! (r, i1) := nx fuel i in
    match r with
    | (_, Some e) => Done ((zt, Some e), i1)
    | (val, None) =>
        let! (r, i2) := ws_loop fuel (un i1 val) in
        match r with
        | (_, Some e) => Done ((zt, Some e), i2)
        | (val, None) =>
            if val =? 91 then Done ((tokOBracket, None), i2)
            else if val =? 93 then Done ((tokCBracket, None), i2)
            else if val =? 123 then Done ((tokOBrace, None), i2)
            else if val =? 125 then Done ((tokCBrace, None), i2)
            else if val =? 44 then Done ((tokComma, None), i2)
            else if val =? 58 then Done ((tokColon, None), i2)
            else if val =? 34 then lexString fuel (un i2 val)
            else if (val =? 45) || ((48 <=? val) && (val <=? 57)) then lexNumber fuel (un i2 val)
            else if (val =? 116) || (val =? 102) || (val =? 110) then lexBooleanNull fuel (un i2 val)
            else Done ((zt, Some errInvalidChar), i2)
        end
    end.
End Lex.

(** encoding/json/parse/lex.go:466-470, lexer: OfIter over lex. *)
Definition lexer {S} (it : impl S Z) : impl (impl S Z) token := ofIter it.
Definition lexer_gen {S} (fn : stepfn S Z) : stepfn (impl S Z) token := lex (next fn) unread.
