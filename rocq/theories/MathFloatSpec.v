(** Specification vocabulary for arithmetic on float32 and float64. *)
From Coq Require Import ZArith List QArith Qabs.
From Verif Require Import Base Float FloatSpec ConvFloat ConvFloatSpec.
Close Scope Q_scope.
Open Scope Z_scope.

(** The numbers a float may stand for when it is not NaN: the rationals and two infinities, and their order *)
Inductive ext : Set := MinusInf | Num (q : Q) | PlusInf.
Definition ext_lt (a b : ext) : Prop :=
  match a, b with
  | MinusInf, MinusInf => False
  | MinusInf, _ => True
  | Num p, Num q => (p < q)%Q
  | Num _, PlusInf => True
  | _, _ => False
  end.
Definition ext_eq (a b : ext) : Prop :=
  match a, b with
  | MinusInf, MinusInf | PlusInf, PlusInf => True
  | Num p, Num q => (p == q)%Q
  | _, _ => False
  end.
Definition ext_le (a b : ext) : Prop := ext_lt a b \/ ext_eq a b.
(** The float [x] stands for [a]; NaN stands for nothing *)
Definition stands (x : float) (a : ext) : Prop :=
  match a with MinusInf => x = Inf true | PlusInf => x = Inf false | Num q => denotes x q end.

(** The sign bit *)
Definition sign_bit (x : float) : bool := match x with NaN => false | Inf b => b | Fin b _ _ => b end.
(** A zero, of either sign *)
Definition is_zero (x : float) : Prop := denotes x 0%Q.

(** Halfway between the largest finite number and the next power of two *)
Definition threshold (f : fmt) : Q := digits 2 (2 ^ (fp f + 1) - 1) (femax f - 1).
(** [x] is the exact number [q] rounded to the type: the nearest number of the type, where numbers from [threshold] on are
    rounded to the infinity of their sign *)
Definition rounded (s : fsize) (q : Q) (x : float) : Prop :=
  is_float (fmt_of s) x /\
  ((Qabs q <= max_finite (fmt_of s))%Q -> nearest_in (fmt_of s) q x) /\
  ((max_finite (fmt_of s) < Qabs q)%Q -> (Qabs q < threshold (fmt_of s))%Q ->
     denotes x (if Qnum q <? 0 then - max_finite (fmt_of s) else max_finite (fmt_of s))%Q) /\
  ((threshold (fmt_of s) <= Qabs q)%Q -> x = Inf (Qnum q <? 0)).

(** [z] is the floating point sum of [x] and [y] *)
Definition added (s : fsize) (x y z : float) : Prop :=
  match x, y with
  | NaN, _ | _, NaN => z = NaN
  | Inf a, Inf b => z = (if Bool.eqb a b then Inf a else NaN)
  | Inf a, _ => z = Inf a
  | _, Inf b => z = Inf b
  | Fin _ _ _, Fin _ _ _ => forall p q, denotes x p -> denotes y q -> rounded s (p + q) z
  end.
(** [z] comes of adding the floats [l] to [x] one after the other *)
Inductive added_up (s : fsize) : float -> list float -> float -> Prop :=
| au_nil x : added_up s x [] x
| au_cons x y l x' z : added s x y x' -> added_up s x' l z -> added_up s x (y :: l) z.

(** [z] is the floating point quotient of [x] and [y] *)
Definition divided (s : fsize) (x y z : float) : Prop :=
  match x, y with
  | NaN, _ | _, NaN | Inf _, Inf _ => z = NaN
  | Inf _, _ => z = Inf (xorb (sign_bit x) (sign_bit y))
  | Fin _ _ _, Inf _ => is_zero z /\ sign_bit z = xorb (sign_bit x) (sign_bit y)
  | Fin _ _ _, Fin _ _ _ => forall p q, denotes x p -> denotes y q ->
      ((q == 0)%Q -> (p == 0)%Q -> z = NaN) /\
      ((q == 0)%Q -> ~ (p == 0)%Q -> z = Inf (xorb (sign_bit x) (sign_bit y))) /\
      (~ (q == 0)%Q -> rounded s (p / q) z /\ sign_bit z = xorb (sign_bit x) (sign_bit y))
  end.
