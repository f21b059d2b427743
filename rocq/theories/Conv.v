(** Model of the integer part of package conv (conv/int.go, conv/bigint.go, the integer entries of convertFromTo and
    the dispatch of conv.To).  int and uint are 64 bits wide. *)
From Verif Require Import Base GoInt.
Open Scope Z_scope.

(** Integer kinds of the conversion table; the target and source types of conv.To after ValueToBaseType. *)
Inductive ikind := KInt | KInt8 | KInt16 | KInt32 | KInt64 | KUint | KUint8 | KUint16 | KUint32 | KUint64.

(** conv/int.go:42-44, NumBits. *)
Definition num_bits (k : ikind) : Z :=
  match k with
  | KInt8 | KUint8 => 8 | KInt16 | KUint16 => 16 | KInt32 | KUint32 => 32
  | KInt | KInt64 | KUint | KUint64 => 64
  end.
Definition is_signed (k : ikind) : bool :=
  match k with KInt | KInt8 | KInt16 | KInt32 | KInt64 => true | _ => false end.

(** Go's conversion T(v) between integer types: reduction modulo the width. *)
Definition cast (k : ikind) (v : Z) : Z := if is_signed k then wrapS (num_bits k) v else wrapU (num_bits k) v.

(** fmt.Errorf(errMsg, ...): the conversion error. *)
Definition conv_err : err := UserErr 1.

(** conv/int.go:18-38, the maps minIntValue, maxIntValue (of int) and maxUintValue (of uint). *)
Definition min_int_value (bits : Z) : Z := minS bits.
Definition max_int_value (bits : Z) : Z := maxS bits.
Definition max_uint_value (bits : Z) : Z := maxU bits.

(** conv/int.go:50-62, IntToInt.  [oval] is the value the output pointer points at; result: (error, new *oval). *)
Definition int_to_int (s t : ikind) (ival oval : Z) : option err * Z :=
  if (num_bits t <? num_bits s) &&
     ((ival <? cast s (min_int_value (num_bits t))) || (cast s (max_int_value (num_bits t)) <? ival))
  then (Some conv_err, oval) else (None, cast t ival).

(** conv/int.go:71-83, UintToInt. *)
Definition uint_to_int (s t : ikind) (ival oval : Z) : option err * Z :=
  if (num_bits t <=? num_bits s) && (cast s (max_int_value (num_bits t)) <? ival)
  then (Some conv_err, oval) else (None, cast t ival).

(** conv/int.go:114-126, IntToUint. *)
Definition int_to_uint (s t : ikind) (ival oval : Z) : option err * Z :=
  if (ival <? 0) || ((num_bits t <? num_bits s) && (cast s (max_uint_value (num_bits t)) <? ival))
  then (Some conv_err, oval) else (None, cast t ival).

(** conv/int.go:135-147, UintToUint. *)
Definition uint_to_uint (s t : ikind) (ival oval : Z) : option err * Z :=
  if (num_bits t <? num_bits s) && (cast s (max_uint_value (num_bits t)) <? ival)
  then (Some conv_err, oval) else (None, cast t ival).

(** conv/int.go:180-187 and 246-253, BigIntToInt64 and BigIntToUint64; *big.Int is a Z, IsInt64/Int64 etc. are exact. *)
Definition bigint_to_int64 (ival oval : Z) : option err * Z :=
  if (minS 64 <=? ival) && (ival <=? maxS 64) then (None, ival) else (Some conv_err, oval).
Definition bigint_to_uint64 (ival oval : Z) : option err * Z :=
  if (0 <=? ival) && (ival <=? maxU 64) then (None, ival) else (Some conv_err, oval).

(** conv/conv.go:30-661, the integer/integer entries of convertFromTo: what each entry does. *)
Inductive entry := ECast | EIntToInt | EUintToInt | EIntToUint | EUintToUint | ENone.
Definition table (s t : ikind) : entry :=
  match t, s with
  | KInt, (KInt8 | KInt16 | KInt32) => ECast
  | KInt, KInt64 => EIntToInt
  | KInt, KUint => EUintToInt
  | KInt, (KUint8 | KUint16) => ECast
  | KInt, (KUint32 | KUint64) => EUintToInt
  | KInt8, (KInt | KInt16 | KInt32 | KInt64) => EIntToInt
  | KInt8, (KUint | KUint8 | KUint16 | KUint32 | KUint64) => EUintToInt
  | KInt16, (KInt | KInt32 | KInt64) => EIntToInt
  | KInt16, KInt8 => ECast
  | KInt16, KUint8 => ECast
  | KInt16, (KUint | KUint16 | KUint32 | KUint64) => EUintToInt
  | KInt32, (KInt | KInt64) => EIntToInt
  | KInt32, (KInt8 | KInt16) => ECast
  | KInt32, (KUint8 | KUint16) => ECast
  | KInt32, (KUint | KUint32 | KUint64) => EUintToInt
  | KInt64, (KInt | KInt8 | KInt16 | KInt32) => ECast
  | KInt64, (KUint8 | KUint16 | KUint32) => ECast
  | KInt64, (KUint | KUint64) => EUintToInt
  | KUint, (KInt | KInt8 | KInt16 | KInt32 | KInt64) => EIntToUint
  | KUint, (KUint8 | KUint16 | KUint32) => ECast
  | KUint, KUint64 => EUintToUint
  | KUint8, (KInt | KInt8 | KInt16 | KInt32 | KInt64) => EIntToUint
  | KUint8, (KUint | KUint16 | KUint32 | KUint64) => EUintToUint
  | KUint16, (KInt | KInt8 | KInt16 | KInt32 | KInt64) => EIntToUint
  | KUint16, KUint8 => ECast
  | KUint16, (KUint | KUint32 | KUint64) => EUintToUint
  | KUint32, (KInt | KInt8 | KInt16 | KInt32 | KInt64) => EIntToUint
  | KUint32, (KUint8 | KUint16) => ECast
  | KUint32, (KUint | KUint64) => EUintToUint
  | KUint64, (KInt | KInt8 | KInt16 | KInt32 | KInt64) => EIntToUint
  | KUint64, (KUint | KUint8 | KUint16 | KUint32) => ECast
  | _, _ => ENone
  end.

Definition ikind_eqb (a b : ikind) : bool :=
  match a, b with
  | KInt, KInt | KInt8, KInt8 | KInt16, KInt16 | KInt32, KInt32 | KInt64, KInt64
  | KUint, KUint | KUint8, KUint8 | KUint16, KUint16 | KUint32, KUint32 | KUint64, KUint64 => true
  | _, _ => false
  end.

(** conv/conv.go:1018-1061, To between two integer types, with a non-nil output pointer: copy when the types are the
    same, otherwise the table entry; a missing entry would be a call of a nil function. *)
Definition to_int (s t : ikind) (ival oval : Z) : outcome (option err * Z) :=
  if ikind_eqb s t then Done (None, ival) else
  match table s t with
  | ECast => Done (None, cast t ival)
  | EIntToInt => Done (int_to_int s t ival oval)
  | EUintToInt => Done (uint_to_int s t ival oval)
  | EIntToUint => Done (int_to_uint s t ival oval)
  | EUintToUint => Done (uint_to_uint s t ival oval)
  | ENone => Panicked
  end.

(** conv/conv.go:70-76, 133-139, 198-204, 265-271, 335-337, 385-391, 448-454, 512-518, 577-583, 644-646: the entries
    from *big.Int to the integer types. *)
Definition to_int_from_big (t : ikind) (ival oval : Z) : option err * Z :=
  match t with
  | KInt64 => bigint_to_int64 ival oval
  | KUint64 => bigint_to_uint64 ival oval
  | KInt | KInt8 | KInt16 | KInt32 =>
      match bigint_to_int64 ival 0 with
      | (Some e, _) => (Some e, oval)
      | (None, inter) => int_to_int KInt64 t inter oval
      end
  | KUint | KUint8 | KUint16 | KUint32 =>
      match bigint_to_uint64 ival 0 with
      | (Some e, _) => (Some e, oval)
      | (None, inter) => uint_to_uint KUint64 t inter oval
      end
  end.
