(** Model of the integer functions of math/math.go and of math/range.go.
    A function that writes through a pointer returns (error, new pointee). Type parameters are the base integer kinds
    of Conv.v; named types based on them (type MyInt int) are not modelled (their type name is missing in the tables
    toAbs and toDiv). *)
From Verif Require Import Base GoInt Conv.
Open Scope Z_scope.

(** math/math.go:395-412, AddInt. *)
Definition add_int (k : ikind) (ae1 ae2 : Z) : option err * Z :=
  let sign1 := 0 <=? ae1 in
  let sign2 := 0 <=? ae2 in
  let ae2' := cast k (ae2 + ae1) in
  let newSign := 0 <=? ae2' in
  if Bool.eqb sign1 sign2 && negb (Bool.eqb sign2 newSign)
  then ((if sign2 then Some OverflowErr else Some UnderflowErr), ae2')
  else (None, ae2').

(** math/math.go:416-425, AddUint. *)
Definition add_uint (k : ikind) (ae1 ae2 : Z) : option err * Z :=
  let ae2' := cast k (ae2 + ae1) in
  if ae2' <? ae2 then (Some OverflowErr, ae2') else (None, ae2').

(** math/math.go:455-460, SubInt. *)
Definition sub_int (k : ikind) (me sed : Z) : option err * Z := add_int k me (cast k (- sed)).

(** math/math.go:464-471, SubUint. *)
Definition sub_uint (k : ikind) (me sed : Z) : option err * Z :=
  let sed' := cast k (me - sed) in
  if me <? sed' then (Some UnderflowErr, sed') else (None, sed').

(** math/math.go:476-491, Mul: the product as a big.Int, converted back by conv.To. *)
Definition mul (k : ikind) (mp ma : Z) : option err * Z :=
  let maBI := mp * ma in
  match to_int_from_big k maBI ma with
  | (Some _, ma') => ((if 0 <=? maBI then Some OverflowErr else Some UnderflowErr), ma')
  | (None, ma') => (None, ma')
  end.

(** math/math.go:18-38, divSInt: int64 arithmetic; Go's / and % truncate; dv <> 0. *)
Definition div_sint (de dv : Z) : Z :=
  let q := wrapS 64 (Z.quot de dv) in
  let r0 := Z.rem de dv in
  let half0 := Z.quot dv 2 in
  let r := if r0 <? 0 then wrapS 64 (- r0) else r0 in
  let halfdv := if half0 <? 0 then wrapS 64 (- half0) else half0 in
  if ((Z.land dv 1 =? 0) && (halfdv <=? r)) || ((Z.land dv 1 =? 1) && (halfdv <? r))
  then (if 0 <=? q then wrapS 64 (q + 1) else wrapS 64 (q - 1))
  else q.

(** math/math.go:41-51, divUInt: uint64 arithmetic. *)
Definition div_uint (de dv : Z) : Z :=
  let q := Z.quot de dv in
  let r := Z.rem de dv in
  let halfdv := Z.quot dv 2 in
  if ((Z.land dv 1 =? 0) && (halfdv <=? r)) || ((Z.land dv 1 =? 1) && (halfdv <? r))
  then wrapU 64 (q + 1) else q.

(** math/math.go:155-271, the integer entries of toDiv, reached through Div (506-510). *)
Definition div (k : ikind) (de dv q : Z) : option err * Z :=
  if dv =? 0 then (Some DivByZeroErr, q)
  else if is_signed k then (None, cast k (div_sint de dv)) else (None, cast k (div_uint de dv)).

(** math/math.go:285-317, the big.Int entry of toDiv, reached through DivBigOps; the three numbers are
    assumed to be distinct objects. A nil quotient is allocated first, so the unchanged value is then 0. *)
Definition div_big (de dv q : Z) : option err * Z :=
  if dv =? 0 then (Some DivByZeroErr, q) else
  let q0 := Z.quot de dv in
  let r := Z.abs (Z.rem de dv) in
  let halfdv := Z.shiftr (Z.abs dv) 1 in
  let even := Z.land (Z.abs dv) 1 in
  if ((even =? 0) && (halfdv <=? r)) || ((even =? 1) && (halfdv <? r))
  then (None, if 0 <=? Z.sgn q0 then q0 + 1 else q0 - 1)
  else (None, q0).

(** math/math.go:62-117 and 379-388, Abs on integer types; the error is a formatted message. *)
Definition abs_err : err := UserErr 2.
Definition abs (k : ikind) (v : Z) : option err * Z :=
  if is_signed k then
    if v <? 0 then
      let v' := cast k (- v) in
      if v' <? 0 then (Some abs_err, v') else (None, v')
    else (None, v)
  else (None, v).

(** Comparisons on an ordered type: [ltb a b] is [a < b]; [a > b] is [ltb b a]. *)
Section Ordered.
  Context {T : Type}.
  Variable ltb : T -> T -> bool.

  (** math/math.go:428-436, CmpOrdered. *)
  Definition cmp_ordered (a b : T) : Z := if ltb a b then -1 else if ltb b a then 1 else 0.
  (** math/math.go:520-526 and 547-553, MinOrdered and MaxOrdered. *)
  Definition min_ordered (a b : T) : T := if ltb b a then b else a.
  Definition max_ordered (a b : T) : T := if ltb a b then b else a.
  (** math/math.go:538-544 and 565-571, MinCmp and MaxCmp; [cmp] is the Cmp method. *)
  Definition min_cmp (cmp : T -> T -> Z) (a b : T) : T := if 0 <? cmp a b then b else a.
  Definition max_cmp (cmp : T -> T -> Z) (a b : T) : T := if cmp a b <? 0 then b else a.
End Ordered.

(** math/range.go:30-36, type Range; a mode is [true] for Closed. *)
Record range (T : Type) := mkRange { r_min : T; r_minMode : bool; r_max : T; r_maxMode : bool; r_val : T }.
Arguments mkRange {T}. Arguments r_min {T}. Arguments r_minMode {T}. Arguments r_max {T}.
Arguments r_maxMode {T}. Arguments r_val {T}.

Section Range.
  Context {T : Type}.
  (** the type's < and <= ([a > b] is [ltb b a], [a >= b] is [leb b a]), left abstract: floats have NaN *)
  Variables ltb leb : T -> T -> bool.

  (** math/range.go:43-58, OfRange. *)
  Definition of_range (min : T) (minMode : bool) (max : T) (maxMode : bool) (initial : T) : outcome (range T) :=
    if leb max min || leb max min then Panicked else Done (mkRange min minMode max maxMode initial).

  (** math/range.go:79-96, SetValue. *)
  Definition range_err : err := UserErr 3.
  Definition set_value (r : range T) (val : T) : option err * range T :=
    if ((negb (r_minMode r) && ltb (r_min r) val) || (r_minMode r && leb (r_min r) val)) &&
       ((negb (r_maxMode r) && ltb val (r_max r)) || (r_maxMode r && leb val (r_max r)))
    then (None, mkRange (r_min r) (r_minMode r) (r_max r) (r_maxMode r) val)
    else (Some range_err, r).

  (** A history of SetValue calls: the errors returned and the final range. *)
  Fixpoint set_values (r : range T) (vals : list T) : list (option err) * range T :=
    match vals with
    | [] => ([], r)
    | v :: vs => let '(e, r1) := set_value r v in let '(es, r2) := set_values r1 vs in (e :: es, r2)
    end.
End Range.
