(** Specification of the texts that stand for a rational number in Go syntax: decimal, binary, octal and hexadecimal numbers with
    underscores between digits, fractions and exponents, and quotients of two integers.  Texts are lists of bytes. *)
From Coq Require Import ZArith List QArith Qpower.
From Verif Require Import Base LiteralSpec.
Close Scope Q_scope.
Open Scope Z_scope.

(** [digit_of b c d]: the character [c] is the digit [d] of base [b] *)
Inductive digit_of (b : Z) : Z -> Z -> Prop :=
| dg_num d : 0 <= d <= 9 -> d < b -> digit_of b (48 + d) d
| dg_lower d : 10 <= d <= 35 -> d < b -> digit_of b (97 + (d - 10)) d
| dg_upper d : 10 <= d <= 35 -> d < b -> digit_of b (65 + (d - 10)) d.
(** one or more digits, with at most one underscore between two of them *)
Inductive digit_run (b : Z) : list Z -> list Z -> Prop :=
| run_last c d : digit_of b c d -> digit_run b [c] [d]
| run_next c d t ds : digit_of b c d -> digit_run b t ds -> digit_run b (c :: t) (d :: ds)
| run_under c d t ds : digit_of b c d -> digit_run b t ds -> digit_run b (c :: 95 :: t) (d :: ds).
Definition in_base (b : Z) (ds : list Z) : Z := fold_left (fun a d => a * b + d) ds 0.

(** 0b, 0B, 0o, 0O, 0x and 0X *)
Inductive base_prefix : list Z -> Z -> Prop :=
| bp_2 c : c = 98 \/ c = 66 -> base_prefix [48; c] 2
| bp_8 c : c = 111 \/ c = 79 -> base_prefix [48; c] 8
| bp_16 c : c = 120 \/ c = 88 -> base_prefix [48; c] 16.
(** an integer without sign, as in a Go program: 0, 12_000, 0x_FF, 0b101, 0o17, 017 *)
Inductive integer_literal : list Z -> Z -> Prop :=
| il_zero : integer_literal [48] 0
| il_decimal t ds : digit_run 10 t ds -> hd 48 t <> 48 -> integer_literal t (in_base 10 ds)
| il_prefixed p b u t ds : base_prefix p b \/ p = [48] /\ b = 8 -> u = [] \/ u = [95] -> digit_run b t ds ->
    integer_literal (p ++ u ++ t) (in_base b ds).
(** what may come before the point: [integer_part text base digits] *)
Inductive integer_part : list Z -> Z -> list Z -> Prop :=
| ip_none : integer_part [] 10 []
| ip_decimal t ds : digit_run 10 t ds -> integer_part t 10 ds
| ip_prefix p b : base_prefix p b -> integer_part p b []
| ip_prefixed p b u t ds : base_prefix p b -> u = [] \/ u = [95] -> digit_run b t ds -> integer_part (p ++ u ++ t) b ds.
Definition fraction_part (b : Z) (t ds : list Z) : Prop := t = [] /\ ds = [] \/ digit_run b t ds.
(** [mantissa_literal text base m f]: digits of one base, at least one, and at most one point, [f] of the digits after it; without the
    point they stand for [m] *)
Inductive mantissa_literal : list Z -> Z -> Z -> Z -> Prop :=
| ml_integer t b ds : integer_part t b ds -> ds <> [] -> mantissa_literal t b (in_base b ds) 0
| ml_point t b ds t' ds' : integer_part t b ds -> fraction_part b t' ds' -> ds ++ ds' <> [] ->
    mantissa_literal (t ++ 46 :: t') b (in_base b (ds ++ ds')) (Z.of_nat (length ds')).
(** nothing, or e or E and a power of ten (not after hexadecimal digits, of which e is one), or p or P and a power of two *)
Inductive exponent_literal (base : Z) : list Z -> Z -> Z -> Prop :=
| el_none : exponent_literal base [] 10 0
| el_some c b neg sg t ds : (c = 101 \/ c = 69) /\ b = 10 /\ base <> 16 \/ (c = 112 \/ c = 80) /\ b = 2 ->
    (sg, neg) = ([], false) \/ (sg, neg) = ([43], false) \/ (sg, neg) = ([45], true) -> digit_run 10 t ds ->
    exponent_literal base (c :: sg ++ t) b (if neg then - in_base 10 ds else in_base 10 ds).
Inductive sign_text : list Z -> bool -> Prop :=
| st_none : sign_text [] false | st_plus : sign_text [43] false | st_minus : sign_text [45] true.
Definition signed (neg : bool) (z : Z) : Z := if neg then - z else z.

(** the powers of five and two SetString accepts *)
Definition exponents_ok (base f b x : Z) : Prop :=
  Z.abs ((if base =? 10 then - f else 0) + (if b =? 10 then x else 0)) <= 1000000 /\
  Z.abs (- f * (if base =? 16 then 4 else if base =? 8 then 3 else 1) + x) <= 10000000.

(** [rat_text s q]: the text [s] stands for the number [q] *)
Inductive rat_text : list Z -> Q -> Prop :=
(** 3/4, -0x10/5: the quotient of two integers *)
| rt_ratio sg neg a n b d q : sign_text sg neg -> integer_literal a n -> integer_literal b d -> d <> 0 ->
    (q == inject_Z (signed neg n) / inject_Z d)%Q -> rat_text (sg ++ a ++ 47 :: b) q
(** 1.25e-3, 0x1.8p4: a number with or without fraction and exponent *)
| rt_number sg neg t base m f t' b x q : sign_text sg neg -> mantissa_literal t base m f -> exponent_literal base t' b x ->
    int64 x -> m = 0 \/ exponents_ok base f b x ->
    (q == inject_Z (signed neg m) * inject_Z base ^ (- f) * inject_Z b ^ x)%Q -> rat_text (sg ++ t ++ t') q.
