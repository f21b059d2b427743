(** Model of the entry points of package conv that choose a conversion by the types of their arguments: To, AnyTo, ToBigOps and
    ReflectTo.  The conversions themselves are those of ConvFloat.v. *)
From Coq Require Import ZArith List QArith Ascii String.
From Verif Require Import Base Conv Float ConvFloat.
Close Scope Q_scope.
Open Scope Z_scope.

(** reflect.Type.String of the sixteen types *)
Definition type_name (g : gtype) : string :=
  match g with
  | TI KInt => "int" | TI KInt8 => "int8" | TI KInt16 => "int16" | TI KInt32 => "int32" | TI KInt64 => "int64"
  | TI KUint => "uint" | TI KUint8 => "uint8" | TI KUint16 => "uint16" | TI KUint32 => "uint32" | TI KUint64 => "uint64"
  | TF S32 => "float32" | TF S64 => "float64"
  | TBigInt => "*big.Int" | TBigFloat => "*big.Float" | TBigRat => "*big.Rat" | TString => "string"
  end%string.
Definition all_types : list gtype :=
  [TI KInt; TI KInt8; TI KInt16; TI KInt32; TI KInt64; TI KUint; TI KUint8; TI KUint16; TI KUint32; TI KUint64;
   TF S32; TF S64; TBigInt; TBigFloat; TBigRat; TString].
(** whether the type is one of those reflect.kindToType knows (reflect/reflect.go:22-39); the others are pointers *)
Definition primitive (g : gtype) : bool := match g with TBigInt | TBigFloat | TBigRat => false | _ => true end.

(** the type of a value: one of the sixteen, a type declared in a package with one of them as underlying type, as in
    type Name int32, or any other type (bool, struct, func ...), of which only the string matters *)
Inductive rtype : Set := Known (g : gtype) | Declared (pkg name : string) (g : gtype) | Other (str : string).
Definition rtype_string (t : rtype) : string :=
  match t with Known g => type_name g | Declared p n _ => (p ++ "." ++ n)%string | Other s => s end.
(** reflect/reflect.go:283-299, ValueToBaseType: the type of the result *)
Definition to_base (t : rtype) : rtype := match t with Declared _ _ g => if primitive g then Known g else t | _ => t end.

(** the keys of convertFromTo (conv/conv.go:30-1009) with the conversion each stands for: all pairs of different types *)
Definition same_type (s t : gtype) : bool := String.eqb (type_name s) (type_name t).
Definition keys : list (string * (gtype * gtype)) :=
  flat_map (fun t => flat_map (fun s => if same_type s t then [] else [((type_name s ++ type_name t)%string, (s, t))]) all_types) all_types.
Fixpoint find_key (l : list (string * (gtype * gtype))) (key : string) : option (gtype * gtype) :=
  match l with
  | [] => None
  | (k, st) :: l' => if String.eqb key k then Some st else find_key l' key
  end.

(** the errors of these functions besides those of the conversions *)
Definition err_any_to : err := UserErr 11.
Definition err_src_invalid : err := UserErr 12.
Definition err_tgt_invalid : err := UserErr 13.
Definition err_tgt_ptr : err := UserErr 14.
Definition err_tgt_nil : err := UserErr 15.
Definition err_tgt_big : err := UserErr 16.
Definition err_lookup : err := UserErr 17.

Section Entry.
  (** the conversion of a value of type [s] to type [t], with the old value of the output: ConvFloat.to *)
  Variable conv : gtype -> gtype -> gval -> gval -> outcome (option err * gval).

  (** calling the function a key stands for; its type assertions panic for values of other types *)
  Definition call (st : option (gtype * gtype)) (s t : rtype) (v o : gval) : outcome (option err * gval) :=
    match st with
    | None => Panicked
    | Some (s', t') =>
        match s, t with
        | Known s, Known t => if same_type s s' && same_type t t' then conv s t v o else Panicked
        | _, _ => Panicked
        end
    end.

  (** conv/conv.go:1018-1061, To with a non-nil output pointer; both types meet constraint.Numeric | string *)
  Definition conv_to (s t : rtype) (v o : gval) : outcome (option err * gval) :=
    match to_base s, to_base t with
    | Known s, Known t =>
        if same_type s t then conv s t v o
        else call (find_key keys (type_name s ++ type_name t)%string) (Known s) (Known t) v o
    | s, t => call (find_key keys (rtype_string s ++ rtype_string t)%string) s t v o
    end.

  (** conv/conv.go:1070-1116, AnyTo; [None] is the nil interface, whose reflect.Value has no Interface *)
  Definition any_to (i : option (rtype * gval)) (t : rtype) (o : gval) : outcome (option err * gval) :=
    match i with
    | None => Panicked
    | Some (Known g, v) => conv_to (Known g) t v o
    | Some (Declared p n g, v) => if primitive g then conv_to (Known g) t v o else Done (Some err_any_to, o)
    | Some (Other _, _) => Done (Some err_any_to, o)
    end.

  (** conv/conv.go:1119-1151, ToBigOps with a non-nil output pointer of type [t], one of the three big types *)
  Definition to_big_ops (s : rtype) (t : gtype) (v o : gval) : outcome (option err * gval) :=
    match s with
    | Known s' => if same_type s' t then conv s' t v o else call (find_key keys (type_name s' ++ type_name t)%string) s (Known t) v o
    | _ => call (find_key keys (rtype_string s ++ type_name t)%string) s (Known t) v o
    end.

  (** the target of ReflectTo *)
  Inductive target : Set :=
  | InvalidTarget                          (* the zero reflect.Value *)
  | NotPointer                             (* a value that is no pointer *)
  | NilPointer (t : rtype)                 (* a nil pointer to a value of type t *)
  | BigPointer                             (* a *big.Int, *big.Float or *big.Rat *)
  | PointerTo (t : rtype) (o : gval).      (* a pointer to a variable of type t that holds o *)
  (** conv/conv.go:1161-1202, ReflectTo: the error and what the target points to afterwards *)
  Definition reflect_to (i : option (rtype * gval)) (o : target) : outcome (option err * target) :=
    match i with
    | None => Done (Some err_src_invalid, o)
    | Some (s, v) =>
        match o with
        | InvalidTarget => Done (Some err_tgt_invalid, o)
        | NotPointer => Done (Some err_tgt_ptr, o)
        | NilPointer _ => Done (Some err_tgt_nil, o)
        | BigPointer => Done (Some err_tgt_big, o)
        | PointerTo t old =>
            match find_key keys (rtype_string s ++ rtype_string (to_base t))%string with
            | None => Done (Some err_lookup, o)
            | st => match call st s (to_base t) v old with
                    | Done (e, x) => Done (e, PointerTo t x)
                    | Panicked => Panicked
                    | OutOfFuel => OutOfFuel
                    end
            end
        end
    end.
End Entry.

(** the conversions of ConvFloat.v *)
Definition table oor parse_literal format_float format_bigfloat parse_rat := ConvFloat.to oor parse_literal format_float format_bigfloat parse_rat.
