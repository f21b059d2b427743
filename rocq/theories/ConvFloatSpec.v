(** Specification vocabulary for the conversions of ConvFloat.v. *)
From Coq Require Import ZArith List QArith Qabs.
From Verif Require Import Base Conv ConvSpec Float FloatSpec ConvFloat.
Close Scope Q_scope.
Open Scope Z_scope.

(** The number [q] is an integer. *)
Definition integral (q : Q) : Prop := exists z, (q == inject_Z z)%Q.

(** A conversion of the number [q] to integer type [t] that is exact or fails without touching the output. *)
Definition exact_to_int (t : ikind) (q : Q) (oval : Z) (r : option err * Z) : Prop :=
  (forall z, (q == inject_Z z)%Q -> in_type t z -> r = (None, z)) /\
  (~ (exists z, (q == inject_Z z)%Q /\ in_type t z) -> fst r <> None /\ snd r = oval).
(** the same for *big.Int *)
Definition exact_to_bigint (q : Q) (oval : Z) (r : option err * Z) : Prop :=
  (forall z, (q == inject_Z z)%Q -> r = (None, z)) /\ (~ integral q -> fst r <> None /\ snd r = oval).

(** A *big.Float, apart from its sign bit, is not negative. *)
Definition nonneg_mantissa (x : float) : Prop := match x with Fin _ m _ => 0 <= m | _ => True end.

(** The largest finite value of a format. *)
Definition max_finite (f : fmt) : Q := digits 2 (2 ^ fp f - 1) (femax f).
(** A conversion of [q] to a float type that succeeds exactly when the type has the number; the output is the number, and on
    failure it is overwritten by the nearest float when there is one. *)
Definition exact_to_float (f : fmt) (q : Q) (r : option err * float) : Prop :=
  (representable f q -> fst r = None /\ is_float f (snd r) /\ denotes (snd r) q) /\
  (~ representable f q -> fst r <> None /\ ((Qabs q <= max_finite f)%Q -> nearest_in f q (snd r))).

(** [text] is an optional sign and at least one decimal digit, and [v] is the number it stands for in base ten. *)
Definition digit_string (l : list Z) : Prop := l <> [] /\ Forall (fun c => 48 <= c <= 57) l.
Definition in_base_ten (l : list Z) : Z := fold_left (fun a c => a * 10 + (c - 48)) l 0.
Inductive decimal_text : list Z -> Z -> Prop :=
| dt_plain l : digit_string l -> decimal_text l (in_base_ten l)
| dt_plus l : digit_string l -> decimal_text (43 :: l) (in_base_ten l)
| dt_minus l : digit_string l -> decimal_text (45 :: l) (- in_base_ten l).

(** The values of the types of the conversion table. *)
Definition well_typed (t : gtype) (v : gval) : Prop :=
  match t, v with
  | TI k, VI z => in_type k z
  | TF s, VF x => is_float (fmt_of s) x
  | TBigInt, VBigInt _ => True
  | TBigFloat, VBigFloat x => x <> NaN /\ match x with Fin _ m _ => 0 <= m | _ => True end
  | TBigRat, VBigRat q => Qred q = q
  | TString, VS _ => True
  | _, _ => False
  end.
(** what an output variable may hold: a value, or for the pointer types anything *)
Definition out_typed (t : gtype) (v : gval) : Prop :=
  match t with TBigInt | TBigFloat | TBigRat => True | _ => well_typed t v end.
Definition numeric (t : gtype) : Prop := t <> TString.

(** The number a value stands for: a finite number, or an infinity *)
Definition number (v : gval) (q : Q) : Prop :=
  match v with
  | VI z | VBigInt z => (q == inject_Z z)%Q
  | VF x | VBigFloat x => denotes x q
  | VBigRat r => (q == r)%Q
  | _ => False
  end.
Definition infinity (v : gval) (neg : bool) : Prop :=
  match v with VF x | VBigFloat x => x = Inf neg | _ => False end.
Definition nan (v : gval) : Prop := v = VF NaN.
(** Two values stand for the same number *)
Definition same_number (v w : gval) : Prop :=
  (forall q, number v q -> number w q) /\ (forall neg, infinity v neg -> infinity w neg) /\ (nan v -> nan w).

(** The pairs of types for which conv.To may succeed with a different number. *)
Definition lossy (s t : gtype) : Prop :=
  match s, t with
  | TF S64, TF S32 | (TBigInt | TBigFloat | TBigRat), TF S32 => True
  | TF S64, TI _ | TF S32, TI (KInt | KInt64 | KUint | KUint64) => True
  | TF _, TBigRat => True
  | TBigFloat, TBigRat => True
  | TI (KUint | KUint64), TBigFloat => True
  | TBigRat, TBigFloat => True
  | _, _ => False
  end.

(** The results of out-of-range conversions of floats to integers are values of both float types (as on amd64, where they are
    zero or a power of two). *)
Definition oor_representable (oor : ikind -> float -> Z) : Prop :=
  forall k x s, representable (fmt_of s) (inject_Z (oor k x)).
(** Saturating conversions, as on arm64: the nearest value of the type, and 0 for a NaN *)
Definition saturating (k : ikind) (x : float) : Z :=
  match x with NaN => 0 | Inf neg | Fin neg _ _ => if neg then lo_of k else hi_of k end.
(** amd64: the least value of the type for the signed types, 2^63 for the unsigned ones *)
Definition amd64 (k : ikind) (x : float) : Z := if is_signed k then lo_of k else match k with KUint | KUint64 => 2 ^ 63 | _ => 0 end.
