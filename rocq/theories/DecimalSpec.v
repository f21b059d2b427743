(** What the Decimal properties C34-C41, C66 talk about: the rational a decimal denotes. *)
From Coq Require Export QArith.
From Verif Require Import Base GoInt Decimal.
Close Scope Q_scope.
Open Scope Z_scope.

(** 10^n. *)
Definition p10 (n : nat) : Z := 10 ^ Z.of_nat n.

(** The rational number a decimal denotes: value / 10^scale. *)
Definition value (d : decimal) : Q := Qmake (dval d) (Z.to_pos (p10 (dscale d))).

(** At most 18 digits and a scale of at most 18. *)
Definition valid (d : decimal) : Prop := Z.abs (dval d) <= p10 18 - 1 /\ (dscale d <= 18)%nat.

(** An int64 value. *)
Definition int64 (z : Z) : Prop := - 2 ^ 63 <= z < 2 ^ 63.

(** No useless trailing zero after the point. *)
Definition canonical (d : decimal) : Prop := dscale d = 0%nat \/ dval d mod 10 <> 0.

(** z / m rounded to the nearest integer, halves away from zero. *)
Definition round_half_away (z m : Z) : Z := Z.sgn z * ((2 * Z.abs z + m) / (2 * m)).

(** The number of zeros that must be appended to the operand of smaller scale. *)
Definition scale_gap (d o : decimal) : nat := Nat.max (dscale d) (dscale o) - Nat.min (dscale d) (dscale o).

(** The zeros fit: [d], brought to the scale [s >= dscale d], still has at most 18 digits (zero counts as one digit). *)
Definition fits_scale (d : decimal) (s : nat) : Prop := Z.max 1 (Z.abs (dval d)) * p10 (s - dscale d) <= p10 18 - 1.

(** Both operands can be written with the larger of the two scales. *)
Definition alignable (d o : decimal) : Prop :=
  dscale d = dscale o \/ (dscale d < dscale o)%nat /\ fits_scale d (dscale o) \/
  (dscale o < dscale d)%nat /\ fits_scale o (dscale d).

(** The sum of the values of a list of decimals. *)
Definition total (l : list decimal) : Q := fold_right (fun d acc => Qplus (value d) acc) 0%Q l.

(** A rational with a representation of at most 18 digits and a scale of at most 18. *)
Definition representable (q : Q) : Prop := exists v s, Z.abs v <= p10 18 - 1 /\ (s <= 18)%nat /\ (q == Qmake v (Z.to_pos (p10 s)))%Q.

(** The magnitude of the product of the unscaled values. *)
Definition prod (d o : decimal) : Z := Z.abs (dval d) * Z.abs (dval o).

(** The dividend of Div as an integer over the divisor's unscaled value: extra zeros when the divisor has more decimals. *)
Definition dividend (d o : decimal) : Z := Z.abs (dval d) * p10 (dscale o - dscale d).

(** Inputs on which the 64-bit arithmetic of Div does not wrap: a divisor of at most 18 digits whose unscaled value is at
    most 10^17, a dividend that keeps 18 digits, and no 18-digit prefix of the quotient at or above 2^63/10. *)
Definition div_safe (d o : decimal) : Prop :=
  Z.abs (dval o) <= p10 17 /\ dividend d o <= p10 18 - 1 /\
  forall n, ~ (922337203685477581 <= dividend d o * p10 n / Z.abs (dval o) <= p10 18 - 1).
