(** Specification vocabulary for the texts of numbers. *)
From Coq Require Import ZArith List QArith Qpower.
From Verif Require Import Base Float ConvFloat ConvFloatSpec.
Close Scope Q_scope.
Open Scope Z_scope.

(** decimal digits (as ASCII codes), possibly none *)
Definition digits_only (l : list Z) : Prop := Forall (fun c => 48 <= c <= 57) l.
(** [mantissa text m f]: at least one digit and at most one point; [m] is the number the digits stand for without the point and
    [f] the number of digits after it *)
Inductive mantissa : list Z -> Z -> Z -> Prop :=
| mant_int l : digit_string l -> mantissa l (in_base_ten l) 0
| mant_point l r : digits_only l -> digits_only r -> l ++ r <> [] ->
    mantissa (l ++ 46 :: r) (in_base_ten (l ++ r)) (Z.of_nat (length r)).
(** [exponent text b x]: nothing, or e or E and a power of ten, or p or P and a power of two *)
Inductive exponent : list Z -> Z -> Z -> Prop :=
| exp_none : exponent [] 10 0
| exp_ten c l x : c = 101 \/ c = 69 -> decimal_text l x -> exponent (c :: l) 10 x
| exp_two c l x : c = 112 \/ c = 80 -> decimal_text l x -> exponent (c :: l) 2 x.
(** [numeral text neg m f b x]: an optional sign, a mantissa and an exponent; it stands for plus or minus m * 10^-f * b^x *)
Inductive numeral : list Z -> bool -> Z -> Z -> Z -> Z -> Prop :=
| num_plain s t m f b x : mantissa s m f -> exponent t b x -> numeral (s ++ t) false m f b x
| num_plus s t m f b x : mantissa s m f -> exponent t b x -> numeral (43 :: s ++ t) false m f b x
| num_minus s t m f b x : mantissa s m f -> exponent t b x -> numeral (45 :: s ++ t) true m f b x.
Definition numeral_value (neg : bool) (m f b x : Z) : Q :=
  (inject_Z (if neg then - m else m) * inject_Z 10 ^ (- f) * inject_Z b ^ x)%Q.
(** the exponent fits 64 bits *)
Definition int64 (x : Z) : Prop := - 2 ^ 63 <= x < 2 ^ 63.
(** the number is zero, or its binary exponent before the powers of five is that of a big.Float *)
Definition float_range (m f x : Z) : Prop := m = 0 \/ - 2 ^ 31 <= Z.log2 m + 1 - f + x <= 2 ^ 31 - 1.
(** the number is zero, or its powers of two and five are those SetString accepts *)
Definition rat_range (m f b x : Z) : Prop :=
  m = 0 \/ (Z.abs (- f + (if b =? 10 then x else 0)) <= 1000000 /\ Z.abs (- f + x) <= 10000000).
(** the names of the infinities *)
Definition inf_name (s : list Z) (neg : bool) : Prop :=
  match neg with
  | false => s = [73; 110; 102] \/ s = [105; 110; 102] \/ s = [43; 73; 110; 102] \/ s = [43; 105; 110; 102]
  | true => s = [45; 73; 110; 102] \/ s = [45; 105; 110; 102]
  end.
(** the number or infinity a parsed literal stands for *)
Definition literal_value (l : literal) (neg : bool) (q : Q) : Prop :=
  match l with LNum n p d => n = neg /\ 0 <= p /\ 0 < d /\ (Qmake (if neg then - p else p) (Z.to_pos d) == q)%Q | LInf _ => False end.
