(** Model of package conv beyond the integers (Conv.v): floats, *big.Int, *big.Float, *big.Rat, strings, and conv.To over all
    of them.  A *big.Int is a Z, a *big.Rat a Q in lowest terms, a *big.Float a [float] that is not NaN (its precision and mode
    are not modelled); nil pointers are not modelled, except as results.  Strings are lists of bytes.
    Simplifications: math.Ceil(float64(len) * log2Of10) is taken to be exact; big.ParseFloat is taken to round to nearest. *)
From Coq Require Import ZArith List QArith Qabs.
From Verif Require Import Base GoInt Conv Float.
From Verif Require Decimal.
Close Scope Q_scope.
Open Scope Z_scope.

Inductive fsize : Set := S32 | S64.
Definition fmt_of (s : fsize) : fmt := match s with S32 => f32 | S64 => f64 end.

Definition lo_of (k : ikind) : Z := if is_signed k then minS (num_bits k) else 0.
Definition hi_of (k : ikind) : Z := if is_signed k then maxS (num_bits k) else maxU (num_bits k).

(** strconv.FormatInt, big.Int.String *)
Notation int_to_string := Decimal.int_to_string.
(** math.Ceil(float64(len) * log2Of10): the least number of bits that holds every number of [len] decimal digits *)
Definition bits_of_len (len : nat) : Z := Z.log2_up (10 ^ Z.of_nat len).

(** fmt.Errorf(errMsg, ...) *)
Notation conv_err := Conv.conv_err.

Section Floats.
  (** what converting a float that is out of range to an integer type gives: the Go specification leaves it open *)
  Variable oor : ikind -> float -> Z.

  (** the Go conversion I(x) of a float to an integer type: truncation *)
  Definition float_trunc (k : ikind) (x : float) : Z :=
    match x with
    | Fin neg m e => let '(n, d) := frac m e in
                     let v := if neg then - (n / d) else n / d in
                     if (lo_of k <=? v) && (v <=? hi_of k) then v else oor k x
    | _ => oor k x
    end.
  (** the Go conversion F(v) of an integer to a float type *)
  Definition int_cast_float (s : fsize) (v : Z) : float := to_fmt (fmt_of s) (v <? 0) (Z.abs v) 1.
  (** the Go conversion between float types *)
  Definition float_cast (s : fsize) (x : float) : float :=
    match x with
    | Fin neg m e => let '(n, d) := frac m e in to_fmt (fmt_of s) neg n d
    | _ => x
    end.

  (** conv/float.go:19-31, IntToFloat *)
  Definition int_to_float (k : ikind) (s : fsize) (ival : Z) (oval : float) : option err * float :=
    let inter := int_cast_float s ival in
    if negb (ival =? float_trunc k inter) then (Some conv_err, oval) else (None, inter).

  (** math.SmallestNonzeroFloat32 and math.MaxFloat32 *)
  Definition smallest32 : Q := (1 # Z.to_pos (2 ^ 149))%Q.
  Definition max32 : Q := inject_Z ((2 ^ 24 - 1) * 2 ^ 104).
  (** conv/float.go:39-52, FloatToFloat *)
  Definition float_to_float (t : fsize) (ival oval : float) : option err * float :=
    if is_inf ival || is_nan ival then (None, float_cast t ival) else
    let a := Qabs (fvalue ival) in
    match t with
    | S32 => if (negb (Qeq_bool a 0) && negb (Qle_bool smallest32 a)) || negb (Qle_bool a max32)
             then (Some conv_err, oval) else (None, float_cast t ival)
    | S64 => (None, float_cast t ival)
    end.

  (** conv/bigint.go:17-19 and 22-25, IntToBigInt and UintToBigInt: exact *)
  Definition int_to_bigint (ival : Z) : Z := ival.

  (** conv/bigint.go:40-53, FloatToBigInt (big.Rat.SetFloat64 is exact) *)
  Definition float_to_bigint (ival : float) (oval : Z) : option err * Z :=
    if is_inf ival || is_nan ival then (Some conv_err, oval) else
    let inter := fvalue ival in
    if negb (Pos.eqb (Qden inter) 1) then (Some conv_err, oval) else (None, Qnum inter).

  (** conv/bigint.go:62-70, BigFloatToBigInt (big.Float.Rat is exact, and nil for an infinity) *)
  Definition bigfloat_to_bigint (ival : float) (oval : Z) : option err * Z :=
    match ival with
    | Fin _ _ _ => let inter := fvalue ival in
                   if negb (Pos.eqb (Qden inter) 1) then (Some conv_err, oval) else (None, Qnum inter)
    | _ => (Some conv_err, oval)
    end.

  (** conv/bigint.go:79-86, BigRatToBigInt *)
  Definition bigrat_to_bigint (ival : Q) (oval : Z) : option err * Z :=
    if negb (Pos.eqb (Qden ival) 1) then (Some conv_err, oval) else (None, Qnum ival).

  (** conv/int.go:194-201, BigFloatToInt64, and 261-268, BigFloatToUint64 *)
  Definition bigfloat_to_int64 (ival : float) (oval : Z) : option err * Z :=
    match bigfloat_to_bigint ival 0 with
    | (Some _, _) => (Some conv_err, oval)
    | (None, inter) => match bigint_to_int64 inter oval with (Some _, o) => (Some conv_err, o) | r => r end
    end.
  Definition bigfloat_to_uint64 (ival : float) (oval : Z) : option err * Z :=
    match bigfloat_to_bigint ival 0 with
    | (Some _, _) => (Some conv_err, oval)
    | (None, inter) => match bigint_to_uint64 inter oval with (Some _, o) => (Some conv_err, o) | r => r end
    end.

  (** conv/int.go:210-217, BigRatToInt64, and 277-284, BigRatToUint64 *)
  Definition bigrat_to_int64 (ival : Q) (oval : Z) : option err * Z :=
    if negb (Pos.eqb (Qden ival) 1) || negb ((minS 64 <=? Qnum ival) && (Qnum ival <=? maxS 64))
    then (Some conv_err, oval) else (None, Qnum ival).
  Definition bigrat_to_uint64 (ival : Q) (oval : Z) : option err * Z :=
    if negb (Pos.eqb (Qden ival) 1) || negb ((0 <=? Qnum ival) && (Qnum ival <=? maxU 64))
    then (Some conv_err, oval) else (None, Qnum ival).

  (** conv/bigfloat.go:15-20, IntToBigFloat: the precision is set from the length of the decimal string *)
  Definition int_to_bigfloat (ival : Z) : float :=
    to_prec (bits_of_len (length (int_to_string ival))) (ival <? 0) (Z.abs ival) 1.
  (** conv/bigfloat.go:23-25, UintToBigFloat: big.NewFloat(0) has a precision of 53 bits, which SetUint64 keeps *)
  Definition uint_to_bigfloat (ival : Z) : float := to_prec 53 false ival 1.
  (** conv/bigfloat.go:28-35, FloatToBigFloat *)
  Definition float_to_bigfloat (ival oval : float) : option err * float :=
    if is_nan ival then (Some conv_err, oval) else (None, ival).

  (** the number a float literal stands for: an infinity, or a sign and a non-negative fraction *)
  Inductive literal : Set := LInf (neg : bool) | LNum (neg : bool) (n : Z) (d : Z).
  (** big.ParseFloat to [p] bits, given the number the text stands for.  Simplification: ParseFloat multiplies by a power of five that
      is itself rounded to [p] + 64 bits; the model takes that power as exact *)
  Definition round_literal (p : Z) (l : literal) : float :=
    match l with LInf neg => Inf neg | LNum neg n d => to_prec p neg n d end.
  (** conv/bigfloat.go:59-68, the precision StringToBigFloat asks for *)
  Definition string_bits (len : nat) : Z := Z.max 53 (bits_of_len len).
  (** conv/bigfloat.go:43-45, BigIntToBigFloat: StringToBigFloat of the decimal string *)
  Definition bigint_to_bigfloat (ival : Z) : float :=
    round_literal (string_bits (length (int_to_string ival))) (LNum (ival <? 0) (Z.abs ival) 1).
  (** conv/bigfloat.go:48-55, BigRatToBigFloat.  big.Rat.FloatString(prec) rounds half away from zero to [prec] decimals *)
  Definition bigrat_to_bigfloat (ival : Q) : float :=
    let prec := Z.max 53 (bits_of_len (length (int_to_string (Qnum ival)))) in
    let den := Zpos (Qden ival) in
    let text := (2 * Z.abs (Qnum ival) * 10 ^ prec + den) / (2 * den) in
    round_literal prec (LNum (Qnum ival <? 0) text (10 ^ prec)).

  (** conv/bigrat.go:15-17 and 20-22, IntToBigRat and UintToBigRat; 42-44, BigIntToBigRat: exact *)
  Definition int_to_bigrat (ival : Z) : Q := inject_Z ival.

  (** conv/string.go:35-37, BigFloatToString, read back by big.Rat.SetString: big.Float.String keeps ten significant digits
      (Text('g', 10)), rounded half to even *)
  Definition ten_digits (ival : float) : Q :=
    match ival with
    | Fin neg m e =>
        if m =? 0 then 0%Q else
        let '(n, d) := frac m e in
        let '(m10, e10) := round 10 10 None n d in
        let '(n', d') := scale 10 (- e10) (if neg then - m10 else m10) 1 in
        Qred (Qmake n' (Z.to_pos d'))
    | _ => 0%Q
    end.
  (** conv/bigrat.go:47-54, BigFloatToBigRat.  Simplification: numbers beyond 10^1000000, which SetString refuses, are in Literal.v *)
  Definition bigfloat_to_bigrat (ival : float) (oval : Q) : option err * Q :=
    if is_inf ival then (Some conv_err, oval) else (None, ten_digits ival).
  (** conv/bigrat.go:25-34, FloatToBigRat; the errors of the inner calls are ignored *)
  Definition float_to_bigrat (ival : float) (oval : Q) : option err * Q :=
    if is_inf ival || is_nan ival then (Some conv_err, oval) else
    let '(_, inter) := float_to_bigfloat ival (Fin false 0 0) in
    let '(_, r) := bigfloat_to_bigrat inter oval in
    (None, r).

  (** conv/int.go:92-103, FloatToInt, and 156-167, FloatToUint *)
  Definition float_to_int (t : ikind) (ival : float) (oval : Z) : option err * Z :=
    if is_nan ival then (Some conv_err, oval) else
    match float_to_bigrat ival 0%Q with
    | (Some _, _) => (Some conv_err, oval)
    | (None, inter1) =>
        match bigrat_to_int64 inter1 0 with
        | (Some _, _) => (Some conv_err, oval)
        | (None, inter2) => match int_to_int KInt64 t inter2 oval with (Some _, o) => (Some conv_err, o) | r => r end
        end
    end.
  Definition float_to_uint (t : ikind) (ival : float) (oval : Z) : option err * Z :=
    if is_nan ival then (Some conv_err, oval) else
    match float_to_bigrat ival 0%Q with
    | (Some _, _) => (Some conv_err, oval)
    | (None, inter1) =>
        match bigrat_to_uint64 inter1 0 with
        | (Some _, _) => (Some conv_err, oval)
        | (None, inter2) => match uint_to_uint KUint64 t inter2 oval with (Some _, o) => (Some conv_err, o) | r => r end
        end
    end.

  (** big.Float.Float32 and Float64: the nearest float and whether it is exact *)
  Definition bigfloat_float (s : fsize) (x : float) : float * bool :=
    match x with
    | Fin neg m e => let '(n, d) := frac m e in let r := to_fmt (fmt_of s) neg n d in (r, exact (fvalue x) r)
    | Inf _ => (x, true)
    | NaN => (x, false)
    end.
  (** conv/float.go:83-90, BigFloatToFloat32, and 160-167, BigFloatToFloat64: the output is assigned in any case *)
  Definition bigfloat_to_float (s : fsize) (ival : float) : option err * float :=
    let '(oval, acc) := bigfloat_float s ival in
    if negb acc then (Some conv_err, oval) else (None, oval).
  (** conv/float.go:63-74, BigIntToFloat32, and 139-151, BigIntToFloat64 *)
  Definition bigint_to_float (s : fsize) (ival : Z) : option err * float :=
    let inter := bigint_to_bigfloat ival in
    let '(oval, acc) := bigfloat_float s inter in
    if negb acc then (Some conv_err, oval) else (None, oval).
  (** conv/float.go:99-106, BigRatToFloat32, and 176-183, BigRatToFloat64 *)
  Definition bigrat_to_float (s : fsize) (ival : Q) : option err * float :=
    let oval := to_fmt (fmt_of s) (Qnum ival <? 0) (Z.abs (Qnum ival)) (Zpos (Qden ival)) in
    if negb (exact ival oval) then (Some conv_err, oval) else (None, oval).

  (** ** Strings *)

  (** strconv.ParseUint(s, 10, 64) *)
  Inductive perr : Set := PSyntax | PRange.
  Definition parse_uint64 (s : list Z) : Z * option perr :=
    match s with
    | [] => (0, Some PSyntax)
    | _ => if forallb Decimal.is_digit s then
             let v := Decimal.undec (map (fun c => c - 48) s) in
             if v <=? maxU 64 then (v, None) else (maxU 64, Some PRange)
           else (0, Some PSyntax)
    end.
  (** strconv.ParseInt(s, 10, 64) *)
  Definition parse_int64 (s : list Z) : Z * option perr :=
    match s with
    | [] => (0, Some PSyntax)
    | c :: r =>
        let '(neg, body) := if c =? 43 then (false, r) else if c =? 45 then (true, r) else (false, s) in
        match parse_uint64 body with
        | (_, Some PSyntax) => (0, Some PSyntax)
        | (un, _) =>
            if negb neg && (2 ^ 63 <=? un) then (2 ^ 63 - 1, Some PRange)
            else if neg && (2 ^ 63 <? un) then (- 2 ^ 63, Some PRange)
            else (if neg then - un else un, None)
        end
    end.
  (** conv/int.go:226-234, StringToInt64: the output is assigned in any case *)
  Definition string_to_int64 (s : list Z) : option err * Z :=
    let '(oval, e) := parse_int64 s in
    match e with Some _ => (Some conv_err, oval) | None => (None, oval) end.
  (** conv/int.go:293-300, StringToUint64 *)
  Definition string_to_uint64 (s : list Z) : option err * Z :=
    let '(oval, e) := parse_uint64 s in
    match e with Some _ => (Some conv_err, oval) | None => (None, oval) end.
  (** conv/bigint.go:95-102, StringToBigInt; [None] is the undefined value big.Int.SetString leaves behind *)
  Definition string_to_bigint (s : list Z) : option err * option Z :=
    match s with
    | [] => (Some conv_err, None)
    | c :: r =>
        let '(neg, body) := if c =? 43 then (false, r) else if c =? 45 then (true, r) else (false, s) in
        match body with
        | [] => (Some conv_err, None)
        | _ => if forallb Decimal.is_digit body then
                 let v := Decimal.undec (map (fun c => c - 48) body) in (None, Some (if neg then - v else v))
               else (Some conv_err, None)
        end
    end.
  (** conv/string.go:14-16, 19-21 and 30-32, IntToString, UintToString and BigIntToString *)
  Definition integer_to_string (v : Z) : list Z := int_to_string v.
  (** conv/string.go:41-43, BigRatToString *)
  Definition bigrat_to_string (q : Q) : list Z := int_to_string (Qnum q) ++ 47 :: int_to_string (Zpos (Qden q)).

  (** the grammar of big.ParseFloat: the number a text stands for, if any *)
  Variable parse_literal : list Z -> option literal.
  Definition nan_text : list Z := [78; 97; 78].
  (** conv/bigfloat.go:59-74, StringToBigFloat; [None] for the output after a parse error *)
  Definition string_to_bigfloat (s : list Z) : option err * option float :=
    match parse_literal s with
    | None => (Some conv_err, None)
    | Some l => (None, Some (round_literal (string_bits (length s)) l))
    end.
  (** conv/float.go:115-128, StringToFloat32, and 192-205, StringToFloat64 *)
  Definition string_to_float (z : fsize) (s : list Z) (oval : float) : option err * float :=
    if list_eq_dec Z.eq_dec s nan_text then (None, NaN) else
    match string_to_bigfloat s with
    | (None, Some inter) =>
        match bigfloat_to_float z inter with (Some _, o) => (Some conv_err, o) | r => r end
    | _ => (Some conv_err, oval)
    end.

  (** ** conv.To *)

  (** the sixteen types of the conversion table, and their values; [VUnspec] is a nil pointer or a pointer to an unspecified
      value left by a failed conversion from a string *)
  Inductive gtype : Set := TI (k : ikind) | TF (s : fsize) | TBigInt | TBigFloat | TBigRat | TString.
  Inductive gval : Set := VI (z : Z) | VF (x : float) | VBigInt (z : Z) | VBigFloat (x : float) | VBigRat (q : Q) | VS (s : list Z) | VUnspec.

  (** fmt and strconv renderings of floats, and the grammar of big.Rat.SetString *)
  Variable format_float : fsize -> float -> list Z.
  Variable format_bigfloat : float -> list Z.
  Variable parse_rat : list Z -> option Q.

  (** integer -> float entries: conv/conv.go:658-691 and 721-756 *)
  Definition float_table (k : ikind) (s : fsize) : bool :=   (* true: IntToFloat; false: a plain conversion *)
    match s, k with
    | S32, (KInt8 | KInt16 | KUint8 | KUint16) => false
    | S64, (KInt8 | KInt16 | KInt32 | KUint8 | KUint16 | KUint32) => false
    | _, _ => true
    end.

  Definition lift_i (r : option err * Z) : outcome (option err * gval) := Done (fst r, VI (snd r)).
  Definition lift_f (r : option err * float) : outcome (option err * gval) := Done (fst r, VF (snd r)).

  (** the entries from an int64 or uint64 valued intermediate to an integer type: var inter int64; if err := ...; err != nil
      { return err }; return IntToInt(inter, u), and the direct ones for int64 and uint64.  [conv64] is the conversion to int64
      or uint64 as a function of the old output *)
  Definition via64 (t : ikind) (conv64 : Z -> option err * Z) (oval : Z) : option err * Z :=
    match t with
    | KInt64 | KUint64 => conv64 oval
    | KInt | KInt8 | KInt16 | KInt32 =>
        match conv64 0 with (Some e, _) => (Some e, oval) | (None, inter) => int_to_int KInt64 t inter oval end
    | KUint | KUint8 | KUint16 | KUint32 =>
        match conv64 0 with (Some e, _) => (Some e, oval) | (None, inter) => uint_to_uint KUint64 t inter oval end
    end.
  (** the entries to float32 from the big types: through a float64 (conv/conv.go:695-715) *)
  Definition via_float64 (conv64 : option err * float) (oval : float) : option err * float :=
    match conv64 with (Some e, _) => (Some e, oval) | (None, inter) => float_to_float S32 inter oval end.

  (** conv/conv.go:30-1006, convertFromTo, and 1018-1061, To, with a non-nil output pointer whose value is [o] *)
  Definition to (s t : gtype) (v o : gval) : outcome (option err * gval) :=
    match s, v, t, o with
    (* the same type *)
    | TF S32, VF x, TF S32, _ => Done (None, VF x)
    | TF S64, VF x, TF S64, _ => Done (None, VF x)
    | TBigInt, VBigInt z, TBigInt, _ => Done (None, VBigInt z)
    | TBigFloat, VBigFloat x, TBigFloat, _ => Done (None, VBigFloat x)
    | TBigRat, VBigRat q, TBigRat, _ => Done (None, VBigRat q)
    | TString, VS s, TString, _ => Done (None, VS s)
    (* to the integer types *)
    | TI k, VI z, TI t, VI o => match to_int k t z o with Done r => lift_i r | Panicked => Panicked | OutOfFuel => OutOfFuel end
    | TF _, VF x, TI t, VI o => lift_i (if is_signed t then float_to_int t x o else float_to_uint t x o)
    | TBigInt, VBigInt z, TI t, VI o => lift_i (via64 t (if is_signed t then bigint_to_int64 z else bigint_to_uint64 z) o)
    | TBigFloat, VBigFloat x, TI t, VI o => lift_i (via64 t (if is_signed t then bigfloat_to_int64 x else bigfloat_to_uint64 x) o)
    | TBigRat, VBigRat q, TI t, VI o => lift_i (via64 t (if is_signed t then bigrat_to_int64 q else bigrat_to_uint64 q) o)
    | TString, VS s, TI t, VI o =>
        lift_i (via64 t (fun _ => if is_signed t then string_to_int64 s else string_to_uint64 s) o)
    (* to the float types *)
    | TI k, VI z, TF f, VF o => lift_f (if float_table k f then int_to_float k f z o else (None, int_cast_float f z))
    | TF S64, VF x, TF S32, VF o => lift_f (float_to_float S32 x o)
    | TF S32, VF x, TF S64, VF o => lift_f (None, float_cast S64 x)
    | TBigInt, VBigInt z, TF S32, VF o => lift_f (via_float64 (bigint_to_float S64 z) o)
    | TBigFloat, VBigFloat x, TF S32, VF o => lift_f (via_float64 (bigfloat_to_float S64 x) o)
    | TBigRat, VBigRat q, TF S32, VF o => lift_f (via_float64 (bigrat_to_float S64 q) o)
    | TBigInt, VBigInt z, TF S64, VF o => lift_f (bigint_to_float S64 z)
    | TBigFloat, VBigFloat x, TF S64, VF o => lift_f (bigfloat_to_float S64 x)
    | TBigRat, VBigRat q, TF S64, VF o => lift_f (bigrat_to_float S64 q)
    | TString, VS s, TF f, VF o => lift_f (string_to_float f s o)
    (* to *big.Int *)
    | TI _, VI z, TBigInt, _ => Done (None, VBigInt (int_to_bigint z))
    | TF _, VF x, TBigInt, _ => match float_to_bigint x 0 with (None, z) => Done (None, VBigInt z) | (e, _) => Done (e, o) end
    | TBigFloat, VBigFloat x, TBigInt, _ =>
        match bigfloat_to_bigint x 0 with (None, z) => Done (None, VBigInt z) | (e, _) => Done (e, o) end
    | TBigRat, VBigRat q, TBigInt, _ =>
        match bigrat_to_bigint q 0 with (None, z) => Done (None, VBigInt z) | (e, _) => Done (e, o) end
    | TString, VS s, TBigInt, _ =>
        match string_to_bigint s with (e, Some z) => Done (e, VBigInt z) | (e, None) => Done (e, VUnspec) end
    (* to *big.Float *)
    | TI k, VI z, TBigFloat, _ => Done (None, VBigFloat (if is_signed k then int_to_bigfloat z else uint_to_bigfloat z))
    | TF _, VF x, TBigFloat, _ =>
        match float_to_bigfloat x (Fin false 0 0) with (None, y) => Done (None, VBigFloat y) | (e, _) => Done (e, o) end
    | TBigInt, VBigInt z, TBigFloat, _ => Done (None, VBigFloat (bigint_to_bigfloat z))
    | TBigRat, VBigRat q, TBigFloat, _ => Done (None, VBigFloat (bigrat_to_bigfloat q))
    | TString, VS s, TBigFloat, _ =>
        match string_to_bigfloat s with (e, Some x) => Done (e, VBigFloat x) | (e, None) => Done (e, VUnspec) end
    (* to *big.Rat *)
    | TI _, VI z, TBigRat, _ => Done (None, VBigRat (int_to_bigrat z))
    | TF _, VF x, TBigRat, _ => match float_to_bigrat x 0%Q with (None, q) => Done (None, VBigRat q) | (e, _) => Done (e, o) end
    | TBigInt, VBigInt z, TBigRat, _ => Done (None, VBigRat (int_to_bigrat z))
    | TBigFloat, VBigFloat x, TBigRat, _ =>
        match bigfloat_to_bigrat x 0%Q with (None, q) => Done (None, VBigRat q) | (e, _) => Done (e, o) end
    | TString, VS s, TBigRat, _ =>
        match parse_rat s with Some q => Done (None, VBigRat q) | None => Done (Some conv_err, VUnspec) end
    (* to string *)
    | TI _, VI z, TString, _ => Done (None, VS (integer_to_string z))
    | TF f, VF x, TString, _ => Done (None, VS (format_float f x))
    | TBigInt, VBigInt z, TString, _ => Done (None, VS (integer_to_string z))
    | TBigFloat, VBigFloat x, TString, _ => Done (None, VS (format_bigfloat x))
    | TBigRat, VBigRat q, TString, _ => Done (None, VS (bigrat_to_string q))
    | _, _, _, _ => Panicked
    end.
End Floats.
