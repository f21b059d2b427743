(** Texts of float32 and float64 values: conv.FloatToString, that is strconv.FormatFloat(v, 'f', -1, bits) of the Go standard library.
    Strings are lists of bytes.
    Simplification: strconv finds the digits with the Ryu algorithm (or, before Go 1.17, Grisu with a fallback); the model searches
    them directly, one number of digits after the other, as the function roundShortest of strconv/ftoa.go does. *)
From Coq Require Import ZArith List QArith Bool.
From Verif Require Import Base Float ConvFloat Literal.
From Verif Require Decimal.
Import ListNotations.
Close Scope Q_scope.
Open Scope Z_scope.

(** whether the decimal c * 10^g, read as a number of the format, is n/d *)
Definition reads_back (f : fmt) (n d c g : Z) : bool :=
  let '(a, b) := scale 10 (- g) c 1 in
  match to_fmt f false a b with
  | Fin _ m e => let '(p, q) := frac m e in p * d =? n * q
  | _ => false
  end.
(** strconv/ftoa.go, roundShortest: with one more digit every time, the digits of n/d cut off after so many digits, or those rounded
    up, as soon as one of the two reads back as n/d; the nearer one if both do.  Result: the digits as a number, and the power of
    ten they are to be multiplied with *)
Fixpoint shortest (f : fmt) (n d : Z) (fuel : nat) (k : Z) : Z * Z :=
  let g := top 10 n d - k + 1 in
  let '(n', d') := scale 10 g n d in
  match fuel with
  | O => (rne n' d', g)
  | S fuel =>
      let lo := n' / d' in
      let hi := if n' mod d' =? 0 then lo else lo + 1 in
      let down := reads_back f n d lo g in
      let up := reads_back f n d hi g in
      if down && up then (rne n' d', g)
      else if down then (lo, g)
      else if up then (hi, g)
      else shortest f n d fuel (k + 1)
  end.
(** enough digits for every number of the format (theorem C98_reads_back) *)
Definition most_digits (z : fsize) : nat := match z with S32 => 9 | S64 => 17 end.

(** conv/string.go:23-27, FloatToString (strconv/ftoa.go, FormatFloat, genericFtoa and fmtF) *)
Definition float_to_string (z : fsize) (x : float) : list Z :=
  match x with
  | NaN => [78; 97; 78]
  | Inf neg => (if neg then 45 else 43) :: [73; 110; 102]
  | Fin neg m e =>
      (if neg then [45] else []) ++
      if m =? 0 then [48] else
      let '(n, d) := frac m e in
      let '(c, g) := shortest (fmt_of z) n d (most_digits z) 1 in
      let full := Decimal.dec c in
      let ds := strip full in
      let dp := Z.of_nat (length full) + g in
      fmt_f (Z.max (Z.of_nat (length ds) - dp) 0) ds dp
  end.
