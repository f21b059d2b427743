(** Floating point numbers and rounding.  Nothing here models code of /repo: it is the part of Go and of package math/big that
    conv/float.go, conv/bigfloat.go and conv/bigrat.go call. *)
From Coq Require Import ZArith List QArith Qpower.
From Verif Require Import Base.
Close Scope Q_scope.
Open Scope Z_scope.

(** floor(log_b n), for n >= 1 *)
Fixpoint ilog_fuel (fuel : nat) (b n : Z) : Z :=
  match fuel with
  | O => 0
  | S f => if n <? b then 0 else 1 + ilog_fuel f b (n / b)
  end.
Definition ilog (b n : Z) : Z := ilog_fuel (Z.to_nat (Z.log2 n)) b n.

(** numerator and denominator of (n/d) / b^e *)
Definition scale (b e n d : Z) : Z * Z := if 0 <=? e then (n, d * b ^ e) else (n * b ^ (- e), d).

(** floor(log_b (n/d)), for n, d >= 1 *)
Definition top (b n d : Z) : Z :=
  let l := ilog b n - ilog b d in
  let '(n', d') := scale b l n d in
  if n' <? d' then l - 1 else l.

(** n/d rounded to the nearest integer, ties to even *)
Definition rne (n d : Z) : Z :=
  let q := n / d in
  let r := n mod d in
  if 2 * r <? d then q else if d <? 2 * r then q + 1 else if Z.even q then q else q + 1.

(** n/d > 0 rounded to [p] digits in base [b], ties to even, as mantissa and exponent; the exponent is at least [emin] *)
Definition round (b p : Z) (emin : option Z) (n d : Z) : Z * Z :=
  let e0 := top b n d - p + 1 in
  let e := match emin with Some m => Z.max m e0 | None => e0 end in
  let '(n', d') := scale b e n d in
  (rne n' d', e).

(** A binary format: mantissas have [fp] bits, exponents of the last bit go from [femin] to [femax] *)
Record fmt : Set := mkFmt { fp : Z; femin : Z; femax : Z }.
Definition f32 : fmt := mkFmt 24 (-149) 104.
Definition f64 : fmt := mkFmt 53 (-1074) 971.

(** A Go float32 or float64, or a big.Float (which is never NaN and whose mantissa may have any size): a finite number is
    plus or minus m * 2^e with m >= 0 *)
Inductive float : Set := NaN | Inf (neg : bool) | Fin (neg : bool) (m e : Z).

(** the non-negative rational n/d with a sign, rounded to a format (Go's numeric conversions; big.Float.Float32, Float64;
    big.Rat.Float32, Float64) *)
Definition to_fmt (f : fmt) (neg : bool) (n d : Z) : float :=
  if n =? 0 then Fin neg 0 (femin f) else
  let '(m, e) := round 2 (fp f) (Some (femin f)) n d in
  let '(m, e) := if m =? 2 ^ fp f then (2 ^ (fp f - 1), e + 1) else (m, e) in
  if femax f <? e then Inf neg else Fin neg m e.

(** the same, rounded to a precision of [p] bits (big.Float's SetPrec, SetInt64, SetUint64, ParseFloat) *)
Definition to_prec (p : Z) (neg : bool) (n d : Z) : float :=
  if n =? 0 then Fin neg 0 0 else let '(m, e) := round 2 p None n d in Fin neg m e.

(** numerator and denominator of m * 2^e *)
Definition frac (m e : Z) : Z * Z := scale 2 (- e) m 1.

(** the number a finite float denotes, in lowest terms *)
Definition fvalue (x : float) : Q :=
  match x with
  | Fin neg m e => let '(n, d) := frac (if neg then - m else m) e in Qred (Qmake n (Z.to_pos d))
  | _ => 0%Q
  end.

Definition is_nan (x : float) : bool := match x with NaN => true | _ => false end.
Definition is_inf (x : float) : bool := match x with Inf _ => true | _ => false end.

(** big.Accuracy of a conversion of the finite number [q] with result [x] *)
Definition exact (q : Q) (x : float) : bool := match x with Fin _ _ _ => Qeq_bool q (fvalue x) | _ => false end.
