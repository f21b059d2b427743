(** Model of package math and of the numeric reducers of package stream on the types float32 and float64, and of the choice of
    the function of toAbs and toDiv by the name of the type. *)
From Coq Require Import ZArith List QArith Qabs String.
From Verif Require Import Base Iter GoInt Conv Float ConvFloat Big MathInt Stream.
Close Scope Q_scope.
Open Scope Z_scope.

(** ** Go's operators on floats (IEEE 754, round to nearest even) *)
(** x < y *)
Definition fltb (x y : float) : bool :=
  match x, y with
  | NaN, _ | _, NaN => false
  | Inf a, Inf b => a && negb b
  | Inf a, Fin _ _ _ => a
  | Fin _ _ _, Inf b => negb b
  | Fin _ _ _, Fin _ _ _ => negb (Qle_bool (fvalue y) (fvalue x))
  end.
(** x <= y *)
Definition fleb (x y : float) : bool :=
  match x, y with
  | NaN, _ | _, NaN => false
  | Inf a, Inf b => a || negb b
  | Inf a, Fin _ _ _ => a
  | Fin _ _ _, Inf b => negb b
  | Fin _ _ _, Fin _ _ _ => Qle_bool (fvalue x) (fvalue y)
  end.
(** x == y *)
Definition feqb (x y : float) : bool := fleb x y && fleb y x.
(** the number [q] rounded to the type, with the given sign (it matters when [q] is or becomes zero) *)
Definition round_to (s : fsize) (neg : bool) (q : Q) : float := to_fmt (fmt_of s) neg (Z.abs (Qnum q)) (Zpos (Qden q)).
(** x + y *)
Definition fadd (s : fsize) (x y : float) : float :=
  match x, y with
  | NaN, _ | _, NaN => NaN
  | Inf a, Inf b => if Bool.eqb a b then Inf a else NaN
  | Inf a, _ => Inf a
  | _, Inf b => Inf b
  | u, v => if fzero u && fzero v then Fin (fneg u && fneg v) 0 (femin (fmt_of s))
            else let q := (fvalue u + fvalue v)%Q in round_to s (Qnum q <? 0) q
  end.
(** x / y *)
Definition fdiv (s : fsize) (x y : float) : float :=
  let neg := xorb (fneg x) (fneg y) in
  match x, y with
  | NaN, _ | _, NaN => NaN
  | Inf _, Inf _ => NaN
  | Inf _, _ => Inf neg
  | _, Inf _ => Fin neg 0 (femin (fmt_of s))
  | u, v => if fzero v then (if fzero u then NaN else Inf neg) else round_to s neg (fvalue u / fvalue v)%Q
  end.
(** math.Abs of the Go library *)
Definition fabs (x : float) : float :=
  match x with NaN => NaN | Inf _ => Inf false | Fin _ m e => Fin false m e end.

(** ** Package math *)
(** math/math.go:118-130, the float32 and float64 entries of toAbs *)
Definition abs_float (s : fsize) (v : float) : option err * float :=
  match s with
  | S32 => (None, float_cast S32 (fabs (float_cast S64 v)))
  | S64 => (None, fabs v)
  end.
(** math/math.go:292-302, the float32 and float64 entries of toDiv: the error and the new value of the quotient *)
Definition div_float (s : fsize) (de dv : float) : option err * float := (None, fdiv s de dv).
(** math/math.go:428-436, 520-526, 547-553: CmpOrdered, MinOrdered, MaxOrdered on floats *)
Definition cmp_float : float -> float -> Z := cmp_ordered fltb.
Definition min_float : float -> float -> float := min_ordered fltb.
Definition max_float : float -> float -> float := max_ordered fltb.

Section Complex.
  (** the complex numbers of one type; [modulus] is cmplx.Abs *)
  Context {C : Type}.
  Variable modulus : C -> float.
  (** math/math.go:439-451, CmpComplex *)
  Definition cmp_complex (a b : C) : Z :=
    if fltb (modulus a) (modulus b) then -1 else if fltb (modulus b) (modulus a) then 1 else 0.
  (** math/math.go:529-535, MinComplex *)
  Definition min_complex (a b : C) : C := if fltb (modulus b) (modulus a) then b else a.
  (** math/math.go:556-562, MaxComplex *)
  Definition max_complex (a b : C) : C := if fltb (modulus a) (modulus b) then b else a.
End Complex.

(** ** Package stream *)
(** stream/stream.go:1078-1084, Sum over a float type *)
Definition st_sum_float {S} (z : Zero float) (s : fsize) (nx : stepfn S float) : stepfn (bool * S) float := st_reduce nx (fadd s) [].

(** ** The choice by the name of the type *)
(** the predeclared numeric types and the pointer types of constraint.Numeric *)
Inductive base : Set := BInt (k : ikind) | BFloat (s : fsize) | BBigInt | BBigFloat | BBigRat.
(** a type argument that meets constraint.Numeric: one of those, or a type declared in a package, as in  type Name int32 *)
Inductive gotype : Set := Plain (b : base) | Named (pkg name : string) (under : base).
(** reflect.Type.String *)
Definition kind_name (k : ikind) : string :=
  match k with
  | KInt => "int" | KInt8 => "int8" | KInt16 => "int16" | KInt32 => "int32" | KInt64 => "int64"
  | KUint => "uint" | KUint8 => "uint8" | KUint16 => "uint16" | KUint32 => "uint32" | KUint64 => "uint64"
  end%string.
Definition base_name (b : base) : string :=
  match b with
  | BInt k => kind_name k
  | BFloat S32 => "float32" | BFloat S64 => "float64"
  | BBigInt => "*big.Int" | BBigFloat => "*big.Float" | BBigRat => "*big.Rat"
  end%string.
Definition type_string (t : gotype) : string :=
  match t with Plain b => base_name b | Named p n _ => (p ++ "." ++ n)%string end.

(** the keys of toAbs (math/math.go:62-152) and the type each function works on *)
Definition to_abs : list (string * base) :=
  [("int", BInt KInt); ("int8", BInt KInt8); ("int16", BInt KInt16); ("int32", BInt KInt32); ("int64", BInt KInt64);
   ("float32", BFloat S32); ("float64", BFloat S64); ("*big.Int", BBigInt); ("*big.Float", BBigFloat); ("*big.Rat", BBigRat)]%string.
(** the keys of toDiv (math/math.go:155-371) *)
Definition to_div : list (string * base) :=
  [("int", BInt KInt); ("int8", BInt KInt8); ("int16", BInt KInt16); ("int32", BInt KInt32); ("int64", BInt KInt64);
   ("uint", BInt KUint); ("uint8", BInt KUint8); ("uint16", BInt KUint16); ("uint32", BInt KUint32); ("uint64", BInt KUint64);
   ("float32", BFloat S32); ("float64", BFloat S64); ("*big.Int", BBigInt); ("*big.Float", BBigFloat); ("*big.Rat", BBigRat)]%string.
Fixpoint lookup (tbl : list (string * base)) (key : string) : option base :=
  match tbl with
  | [] => None
  | (k, b) :: tbl' => if String.eqb key k then Some b else lookup tbl' key
  end.

(** a number of one of the value types *)
Inductive num : Set := NInt (v : Z) | NFloat (x : float).
(** one function of toAbs; the type assertion t.( *int ) panics for a pointer to another type, and so it does here for the
    pointers to big numbers (their functions are in Big.v) *)
Definition abs_base (b : base) (t : gotype) (v : num) : outcome (option err * num) :=
  match b, t, v with
  | BInt k, Plain (BInt k'), NInt z =>
      if String.eqb (kind_name k) (kind_name k') then let '(e, z') := MathInt.abs k z in Done (e, NInt z') else Panicked
  | BFloat S32, Plain (BFloat S32), NFloat x => let '(e, x') := abs_float S32 x in Done (e, NFloat x')
  | BFloat S64, Plain (BFloat S64), NFloat x => let '(e, x') := abs_float S64 x in Done (e, NFloat x')
  | _, _, _ => Panicked
  end.
(** math/math.go:379-388, Abs for a value of type [t]: the error and the new value; calling the nil function of a missing key
    panics *)
Definition abs_any (t : gotype) (v : num) : outcome (option err * num) :=
  let typval := type_string t in
  if String.prefix "uint" typval then Done (None, v) else
  match lookup to_abs typval with Some b => abs_base b t v | None => Panicked end.
(** one function of toDiv *)
Definition div_base (b : base) (t : gotype) (de dv q : num) : outcome (option err * num) :=
  match b, t, de, dv, q with
  | BInt k, Plain (BInt k'), NInt x, NInt y, NInt z =>
      if String.eqb (kind_name k) (kind_name k') then let '(e, z') := MathInt.div k x y z in Done (e, NInt z') else Panicked
  | BFloat S32, Plain (BFloat S32), NFloat x, NFloat y, NFloat _ => let '(e, z') := div_float S32 x y in Done (e, NFloat z')
  | BFloat S64, Plain (BFloat S64), NFloat x, NFloat y, NFloat _ => let '(e, z') := div_float S64 x y in Done (e, NFloat z')
  | _, _, _, _, _ => Panicked
  end.
(** math/math.go:506-510, Div for values of type [t]: the error and the new value of the quotient *)
Definition div_any (t : gotype) (de dv q : num) : outcome (option err * num) :=
  match lookup to_div (type_string t) with Some b => div_base b t de dv q | None => Panicked end.
