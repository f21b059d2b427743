(** Vocabulary of C105: what it means that two decimal calculations have the same result.  No code is modelled here. *)
From Verif Require Import Base GoInt Decimal DecimalSpec.
Open Scope Z_scope.

(** The same number, the same error, or a panic both times. *)
Definition same_result (x y : outcome (option err * decimal)) : Prop :=
  match x, y with
  | Done (None, a), Done (None, b) => (value a == value b)%Q
  | Done (Some e, _), Done (Some e', _) => e = e'
  | Panicked, Panicked => True
  | _, _ => False
  end.
(** The error of the opposite sign. *)
Definition opposite_error (e : err) : err :=
  if err_eqb e ErrDecOverflow then ErrDecUnderflow else if err_eqb e ErrDecUnderflow then ErrDecOverflow else
  if err_eqb e ErrTooLargeToRound then ErrTooSmallToRound else if err_eqb e ErrTooSmallToRound then ErrTooLargeToRound else e.
(** The opposite number, the error of the opposite sign, or a panic both times. *)
Definition opposite_result (x y : outcome (option err * decimal)) : Prop :=
  match x, y with
  | Done (None, a), Done (None, b) => (value a == - value b)%Q
  | Done (Some e, _), Done (Some e', _) => e = opposite_error e'
  | Panicked, Panicked => True
  | _, _ => False
  end.

(** The decimals a program can get hold of without Div: the zero value, and the results without error of the other operations. *)
Inductive reachable : decimal -> Prop :=
| reach_zero : reachable (mkD 0 0 false)
| reach_new v s n d : int64 v -> new_decimal v s n = (None, d) -> reachable d
| reach_string s d : string_to_decimal s = (None, d) -> reachable d
| reach_negate d : reachable d -> reachable (negate d)
| reach_normalize d : reachable d -> reachable (normalize d)
| reach_adjust1 d o d' o' : reachable d -> reachable o -> adjust_scale d o = Done (None, d', o') -> reachable d'
| reach_adjust2 d o d' o' : reachable d -> reachable o -> adjust_scale d o = Done (None, d', o') -> reachable o'
| reach_add d o r : reachable d -> reachable o -> dec_add d o = Done (None, r) -> reachable r
| reach_sub d o r : reachable d -> reachable o -> dec_sub d o = Done (None, r) -> reachable r
| reach_mul d o r : reachable d -> reachable o -> dec_mul d o = (None, r) -> reachable r
| reach_quo d o q r : reachable d -> 0 <= o < 2 ^ 64 -> div_int_quo_rem d o = Done (None, q, r) -> reachable q
| reach_rem d o q r : reachable d -> 0 <= o < 2 ^ 64 -> div_int_quo_rem d o = Done (None, q, r) -> reachable r
| reach_part d o l x : reachable d -> 0 <= o < 2 ^ 64 -> div_int_add d o = Done (None, l) -> In x l -> reachable x.
