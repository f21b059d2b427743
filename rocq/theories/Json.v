(** Model of encoding/json/value.go.  A Go string is its list of bytes; a map is an association list in one of its possible
    iteration orders (GoMap.v).  Error texts are not modelled. *)
From Verif Require Import Base GoMap Decimal Union Rest.
Open Scope go_scope.
Open Scope nat_scope.

(** encoding/json/value.go:35-43, Type. *)
Inductive jtype : Set := TInvalid | TObject | TArray | TString | TNumber | TBoolean | TNull.
Definition jtype_eqb (a b : jtype) : bool :=
  match a, b with
  | TInvalid, TInvalid | TObject, TObject | TArray, TArray | TString, TString | TNumber, TNumber
  | TBoolean, TBoolean | TNull, TNull => true
  | _, _ => false
  end.

(** encoding/json/value.go:67-70, Value. *)
Inductive value : Type :=
  mkV (typ : jtype) (val : four (list (str * value)) (list value) str bool).
Definition typ_of (v : value) : jtype := let 'mkV t _ := v in t.
Definition val_of (v : value) : four (list (str * value)) (list value) str bool := let 'mkV _ u := v in u.

(** encoding/json/value.go:73-78, the constants; the first is also the zero Value. *)
Definition invalidValue : value := mkV TInvalid zero4.
Definition trueValue : value := mkV TBoolean (of4w true).
Definition falseValue : value := mkV TBoolean (of4w false).
Definition nullValue : value := mkV TNull zero4.
Global Instance Zero_value : Zero value := invalidValue.

(** encoding/json/value.go:19-28, the errors, told apart by number. *)
Definition errConvert := UserErr 320.
Definition errNotNumber := UserErr 321.

(** Values of type any that can reach toValue, by what its code tells apart: the containers, bool, a value IsNilValue
    accepts, string, NumberString, another type of kind string, an integer of any of the ten types with its value, and
    any other value, of which only the result of converting it to a string matters (conv.AnyTo, or
    BigRatToNormalizedString for a *big.Rat, which has no error). *)
Inductive gany : Type :=
| AMap (m : list (str * gany))
| ASlice (l : list gany)
| ABool (b : bool)
| ANil
| AString (s : str)
| ANumString (s : str)
| ANamedString (s : str)
| AInt (z : Z)
| AOther (r : str + err).

(** encoding/json/value.go:17, numberStringRegex used with MatchString, which is not anchored: the regular expression matches
    somewhere in [s] exactly when [s] contains a digit (its optional parts can all be left out). *)
Definition number_match (s : str) : bool := existsb is_digit s.

(** encoding/json/value.go:218-239, numberToValue. *)
Definition number_of_str (s : str) : value := mkV TNumber (of4v s).
Definition numberToValue (a : gany) : ret value :=
  match a with
  | ANumString s => if number_match s then (number_of_str s, None) else (zv, Some errNotNumber)
  | AInt z => (number_of_str (int_to_string z), None)
  | AOther (inl s) => (number_of_str s, None)
  | AOther (inr e) => (zv, Some e)
  | _ => (zv, Some errConvert)
  end.

(** encoding/json/value.go:213-215, StringToValue; 252-254, BoolToValue. *)
Definition stringToValue (s : str) : value := mkV TString (of4v s).
Definition boolToValue (b : bool) : value := if b then trueValue else falseValue.

(** encoding/json/value.go:146-170, MapToValue on a map[string]Value; 181-205, SliceToValue on a []Value. *)
Definition mapToValue (m : list (str * value)) : ret value := (mkV TObject (of4t m), None).
Definition sliceToValue (l : list value) : ret value := (mkV TArray (of4u l), None).

(** encoding/json/value.go:81-125, toValue, with the loops of MapToValue (159-165) and SliceToValue (194-200). *)
Fixpoint toValue (a : gany) : outcome (ret value) :=
  match a with
  | AMap m =>
      (fix go (m : list (str * gany)) (mp : list (str * value)) : outcome (ret value) :=
         match m with
         | [] => Done (mapToValue mp)
         | (k, v) :: m' =>
             let! r := toValue v in
             match r with
             | (_, Some e) => Done (zv, Some e)
             | (jval, None) => go m' (mset str_eqb mp k jval)
             end
         end) m []
  | ASlice l =>
      (fix go (l : list gany) (slc : list value) : outcome (ret value) :=
         match l with
         | [] => Done (sliceToValue slc)
         | v :: l' =>
             let! r := toValue v in
             match r with
             | (_, Some e) => Done (zv, Some e)
             | (jval, None) => go l' (slc ++ [jval])
             end
         end) l []
  | ABool b => Done (boolToValue b, None)
  | ANil => Done (nullValue, None)
  | ANumString _ => Done (numberToValue a)
  | AString s => Done (stringToValue s, None)
  | ANamedString _ => Panicked (* val.(string) on another type *)
  | _ => Done (numberToValue a)
  end.

(** encoding/json/value.go:263-314, AsMap, AsSlice, AsString, AsNumber, AsBool, IsNull. *)
Definition asMap (v : value) : outcome (list (str * value)) :=
  if jtype_eqb (typ_of v) TObject then get4t (val_of v) else Panicked.
Definition asSlice (v : value) : outcome (list value) :=
  if jtype_eqb (typ_of v) TArray then get4u (val_of v) else Panicked.
Definition text_of_bool (b : bool) : str :=
  if b then [116; 114; 117; 101]%Z else [102; 97; 108; 115; 101]%Z.
Definition asString (v : value) : outcome str :=
  match typ_of v with
  | TString | TNumber => get4v (val_of v)
  | TBoolean => let! b := get4w (val_of v) in Done (text_of_bool b)
  | _ => Panicked
  end.
Definition asNumber (v : value) : outcome str :=
  if jtype_eqb (typ_of v) TNumber then get4v (val_of v) else Panicked.
Definition asBool (v : value) : outcome bool :=
  if jtype_eqb (typ_of v) TBoolean then get4w (val_of v) else Panicked.
Definition isNull (v : value) : bool := jtype_eqb (typ_of v) TNull.
(** encoding/json/value.go:378-380, IsDocument. *)
Definition isDocument (v : value) : bool := jtype_eqb (typ_of v) TObject || jtype_eqb (typ_of v) TArray.

(** encoding/json/value.go:322-343, ToAny, with the loops of ToMap (347-359) and ToSlice (364-376). *)
Fixpoint toAny (v : value) : outcome gany :=
  match v with
  | mkV typ (Four t u s w wh) =>
      match typ with
      | TObject =>
          let! m := check WT wh t in
          (fix go (m : list (str * value)) (acc : list (str * gany)) : outcome gany :=
             match m with
             | [] => Done (AMap acc)
             | (k, x) :: m' => let! a := toAny x in go m' (mset str_eqb acc k a)
             end) t []
      | TArray =>
          let! l := check WU wh u in
          (fix go (l : list value) (acc : list gany) : outcome gany :=
             match l with
             | [] => Done (ASlice acc)
             | x :: l' => let! a := toAny x in go l' (acc ++ [a])
             end) u []
      | TString => let! s := check WV wh s in Done (AString s)
      | TNumber => let! s := check WV wh s in Done (ANumString s)
      | TBoolean => let! b := check WW wh w in Done (ABool b)
      | TInvalid | TNull => Done ANil
      end
  end.
(** encoding/json/value.go:347-359, ToMap; 364-376, ToSlice (its visitor argument is not used by the code). *)
Definition toMap (v : value) : outcome gany :=
  if jtype_eqb (typ_of v) TObject then toAny v else Panicked.
Definition toSlice (v : value) : outcome gany :=
  if jtype_eqb (typ_of v) TArray then toAny v else Panicked.
