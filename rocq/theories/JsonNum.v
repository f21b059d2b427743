(** Go numbers as JSON numbers: numberToValue of encoding/json/value.go on values of the numeric types, with the texts package conv
    gives them.  In Json.v these values are [AInt] and [AOther], by the result of that text conversion only. *)
From Coq Require Import ZArith List QArith String.
From Verif Require Import Base GoMap Union Rest Conv Float ConvFloat ConvAny Literal FloatText.
From Verif Require Json.
Import ListNotations.
Close Scope Q_scope.
Open Scope go_scope.
Open Scope Z_scope.

(** a value of type any: of one of the sixteen types, a type declared from one, another type ([ConvAny.rtype]), or a nil pointer of
    one of the three types of package big *)
Inductive goval : Set := GVal (t : rtype) (v : gval) | GNilBig (g : gtype).

Section Num.
  (** what Go makes of an out of range conversion of a float to an integer type (not used by these conversions) *)
  Variable oor : ikind -> float -> Z.
  (** conv.AnyTo with a *string (conv/conv.go:1070-1116), with the texts of conv/string.go *)
  Definition any_to_string (t : rtype) (v : gval) : outcome (option err * gval) :=
    any_to (table oor float_parse float_to_string bigfloat_to_string rat_set_string) (Some (t, v)) (Known TString) (VS []).

  (** encoding/json/value.go:218-239, numberToValue.  The text of a nil *big.Int is the one its String method returns (math/big,
      Int.Text); String on a nil *big.Float and IsInt on a nil *big.Rat read through the nil pointer. *)
  Definition number_to_value (a : goval) : outcome (ret Json.value) :=
    match a with
    | GNilBig TBigInt => Done (Json.number_of_str (str "<nil>"), None)
    | GNilBig _ => Panicked
    | GVal (Known TBigRat) (VBigRat q) => Done (Json.number_of_str (bigrat_to_normalized_string q), None)
    | GVal t v =>
        let! r := any_to_string t v in
        match r with
        | (Some e, _) => Done (zv, Some e)
        | (None, VS s) => Done (Json.number_of_str s, None)
        | (None, _) => Panicked
        end
    end.
  (** encoding/json/value.go:81-125, toValue on such a value that is not of kind string: the null Value for a nil pointer
      (funcs.IsNilValue), otherwise numberToValue.  An [Other] type here is neither a container toValue knows nor bool, nor
      nillable and nil. *)
  Definition to_value_number (a : goval) : outcome (ret Json.value) :=
    match a with
    | GNilBig _ => Done (Json.nullValue, None)
    | _ => number_to_value a
    end.
  (** the same value as Json.toValue sees it *)
  Definition as_any (a : goval) : Json.gany :=
    match number_to_value a with
    | Done (v, None) => match Json.asNumber v with Done s => Json.AOther (inl s) | _ => Json.ANil end
    | Done (_, Some e) => Json.AOther (inr e)
    | _ => Json.ANil
    end.
  Definition any_of_number (a : goval) : Json.gany := match a with GNilBig _ => Json.ANil | _ => as_any a end.
End Num.
