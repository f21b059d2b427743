(** Model of the snake case / camel case conversions of funcs/funcs.go:1362-1394.  A string is its list of bytes. *)
From Coq Require Import ZArith List Bool.
From Verif Require Import Base ReaderSpec Writer.
Import ListNotations.
Open Scope Z_scope.

Definition underscore : Z := 95.
Definition is_lower (c : Z) : bool := (97 <=? c) && (c <=? 122).
Definition is_upper (c : Z) : bool := (65 <=? c) && (c <=? 90).

(** strings.Split(s, "_") *)
Fixpoint split_us (s : list Z) : list (list Z) :=
  match s with
  | [] => [[]]
  | c :: s' =>
      if c =? underscore then [] :: split_us s'
      else match split_us s' with w :: ws => (c :: w) :: ws | [] => [[c]] end
  end.

Section Case.
  (** unicode.ToUpper and unicode.ToLower outside ASCII *)
  Variables upper_other lower_other : Z -> Z.
  Definition upper_rune (r : Z) : Z := if is_lower r then r - 32 else if r <? 128 then r else upper_other r.
  Definition lower_rune (r : Z) : Z := if is_upper r then r + 32 else if r <? 128 then r else lower_other r.

  (** funcs/funcs.go:1364-1372, SnakeToCamelCase: word[0] is a byte, string(word[0]) the encoding of the rune of that number *)
  Fixpoint s2c_loop (words : list (list Z)) (sb : list Z) : outcome (list Z) :=
    match words with
    | [] => Done sb
    | word :: words' =>
        match word with
        | [] => Panicked
        | c :: rest => s2c_loop words' ((sb ++ string_of_rune (upper_rune c)) ++ rest)
        end
    end.
  Definition snake_to_camel (snake : list Z) : outcome (list Z) := s2c_loop (split_us snake) [].

  (** FindAllString of the regular expression [A-Z][a-z]* (funcs/funcs.go:39): every capital starts a match, which takes all the
      small letters that follow *)
  Fixpoint take_lower (s : list Z) : list Z :=
    match s with c :: s' => if is_lower c then c :: take_lower s' else [] | [] => [] end.
  Fixpoint camel_words (s : list Z) : list (list Z) :=
    match s with
    | [] => []
    | c :: s' => if is_upper c then (c :: take_lower s') :: camel_words s' else camel_words s'
    end.

  (** funcs/funcs.go:1375-1393, CamelCaseToSnakeCase *)
  Fixpoint c2s_loop (words : list (list Z)) (i lastWord : Z) (sb : list Z) : outcome (list Z) :=
    match words with
    | [] => Done sb
    | word :: words' =>
        match word with
        | [] => Panicked
        | c :: rest =>
            let sb := (sb ++ string_of_rune (lower_rune c)) ++ rest in
            c2s_loop words' (i + 1) lastWord (if i <? lastWord then sb ++ string_of_rune underscore else sb)
        end
    end.
  Definition camel_to_snake (camel : list Z) : outcome (list Z) :=
    match camel with
    | [] => Panicked
    | c :: rest =>
        let words := camel_words (string_of_rune (upper_rune c) ++ rest) in
        c2s_loop words 0 (Z.of_nat (length words) - 1) []
    end.
End Case.
