(** Specification vocabulary for the texts of float32 and float64 values. *)
From Coq Require Import ZArith List QArith Qpower Bool.
From Verif Require Import Base Float FloatSpec ConvFloat ConvFloatSpec LiteralSpec.
Import ListNotations.
Close Scope Q_scope.
Open Scope Z_scope.

(** decimal digits (as ASCII codes) with no needless zero in front *)
Definition whole (l : list Z) : Prop := digit_string l /\ (l = [48] \/ hd 0 l <> 48).
(** [plain text m f]: an unsigned number written without an exponent, a needless zero or a needless point; it stands for
    m * 10^-f, where [f] is the number of digits after the point *)
Inductive plain : list Z -> Z -> Z -> Prop :=
| plain_whole l : whole l -> plain l (in_base_ten l) 0
| plain_point l r c : whole l -> digits_only r -> 49 <= c <= 57 ->
    plain (l ++ 46 :: r ++ [c]) (in_base_ten (l ++ r ++ [c])) (Z.of_nat (length r) + 1).
(** the same with an optional minus sign: [text] is the plain decimal text of the number [v] *)
Definition plain_text (text : list Z) (neg : bool) (v : Q) : Prop :=
  exists t m f, text = (if neg then 45 :: t else t) /\ plain t m f /\
    (v == inject_Z (if neg then - m else m) * inject_Z 10 ^ (- f))%Q.

(** The number [v], rounded to the format (to the nearest, ties to even), is [q] *)
Definition rounds_to (f : fmt) (v q : Q) : Prop :=
  denotes (to_fmt f (Qnum v <? 0) (Z.abs (Qnum v)) (Zpos (Qden v))) q.

(** the sign bit *)
Definition signbit (x : float) : bool := match x with NaN => false | Inf neg | Fin neg _ _ => neg end.
(** [x] and [y] are the same float: both NaN, the same infinity, or the same number with the same sign bit *)
Definition same_float (x y : float) : Prop :=
  match x, y with
  | NaN, NaN => True
  | Inf a, Inf b => a = b
  | Fin a _ _, Fin b _ _ => a = b /\ exists q, denotes x q /\ denotes y q
  | _, _ => False
  end.
