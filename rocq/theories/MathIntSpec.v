(** Specification vocabulary for checked integer arithmetic. *)
From Verif Require Import Base GoInt Conv ConvSpec MathInt.
Open Scope Z_scope.

(** The call stores the exact mathematical result and returns nil when the type has it, and otherwise reports
    overflow when it is too large, underflow when it is too small. *)
Definition checked (k : ikind) (exact : Z) (r : option err * Z) : Prop :=
  (in_type k exact -> r = (None, exact)) /\
  (~ in_type k exact -> 0 <= exact -> fst r = Some OverflowErr) /\
  (~ in_type k exact -> exact < 0 -> fst r = Some UnderflowErr).

(** [q] is [n / d] rounded to the nearest integer, ties away from zero. *)
Definition rounds_to (n d q : Z) : Prop :=
  2 * Z.abs (n - q * d) <= Z.abs d /\ (2 * Z.abs (n - q * d) = Z.abs d -> Z.abs n < Z.abs (q * d)).

(** The true quotient lies in (-1, -1/2]. *)
Definition bad_div (n d : Z) : Prop := n * d < 0 /\ Z.abs n < Z.abs d /\ Z.abs d <= 2 * Z.abs n.

(** The smallest value of a signed type. *)
Definition min_of (k : ikind) : Z := - 2 ^ (num_bits k - 1).

(** A strict total order. *)
Definition strict_total {T} (ltb : T -> T -> bool) : Prop :=
  (forall a, ltb a a = false) /\
  (forall a b c, ltb a b = true -> ltb b c = true -> ltb a c = true) /\
  (forall a b, ltb a b = true \/ a = b \/ ltb b a = true).

(** A value satisfies the bounds of a range: beyond the minimum (or at it if closed), below the maximum (or at it). *)
Definition in_range {T} (ltb leb : T -> T -> bool) (r : range T) (v : T) : Prop :=
  (if r_minMode r then leb (r_min r) v = true else ltb (r_min r) v = true) /\
  (if r_maxMode r then leb v (r_max r) = true else ltb v (r_max r) = true).

(** The last element of a list that satisfies [P], starting from [d]. *)
Inductive last_sat {T} (P : T -> Prop) : T -> list T -> T -> Prop :=
| ls_nil d : last_sat P d [] d
| ls_yes d v l x : P v -> last_sat P v l x -> last_sat P d (v :: l) x
| ls_no d v l x : ~ P v -> last_sat P d l x -> last_sat P d (v :: l) x.
