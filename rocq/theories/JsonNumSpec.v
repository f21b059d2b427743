(** Specification vocabulary for Go numbers written as JSON (C108). *)
From Coq Require Import ZArith List QArith Qpower Qabs.
From Verif Require Import Base Rest Conv Float FloatSpec ConvFloat ConvFloatSpec ConvAny ConvAnySpec LiteralSpec FloatTextSpec JsonNum.
From Verif Require Json JsonSpec.
Import ListNotations.
Close Scope Q_scope.
Open Scope Z_scope.

(** [text] is a number by the grammar of RFC 8259, and [q] is the number it stands for *)
Definition stands_for (text : list Z) (q : Q) : Prop :=
  JsonSpec.json_number text /\ exists neg m f x, numeral text neg m f 10 x /\ (q == numeral_value neg m f 10 x)%Q.

(** [text] is a right JSON text for the Go number: the integers stand for themselves; the text of a float is one that rounds to the
    float; a *big.Float is rounded to ten digits; a *big.Rat that is an integer stands for itself, any other is what
    BigRatToBigFloat makes of it, rounded to ten digits, and so differs by at most a part in 10^9, and 10^-52 *)
Definition number_text (a : goval) (text : list Z) : Prop :=
  match a with
  | GVal t v =>
      exists g, under t g /\ well_typed g v /\
      match g, v with
      | TI _, VI z | TBigInt, VBigInt z => stands_for text (inject_Z z)
      | TF s, VF x => exists q r, denotes x q /\ stands_for text r /\ rounds_to (fmt_of s) r q
      | TBigFloat, VBigFloat x => exists q r, denotes x q /\ stands_for text r /\ nearest_short 10 10 q r
      | TBigRat, VBigRat q =>
          (integral q -> stands_for text q) /\
          (~ integral q -> exists y r, denotes (bigrat_to_bigfloat q) y /\ stands_for text r /\ nearest_short 10 10 y r /\
             (Qabs (q - r) <= Qabs q * (1 # 10 ^ 9) + (1 # 10 ^ 52))%Q)
      | _, _ => False
      end
  | GNilBig _ => False
  end.
(** finite numbers of the numeric types: not NaN, not infinite, not nil *)
Definition finite_number (a : goval) : Prop :=
  match a with
  | GVal t v => exists g, under t g /\ numeric g /\ well_typed g v /\ exists q, number v q
  | GNilBig _ => False
  end.

(** Go trees: map[string]any, []any, string, bool, nil (or a nil pointer) and numbers; strings as runes *)
Inductive gotree : Type :=
| GObj (m : list (list Z * gotree))
| GArr (l : list gotree)
| GStr (s : list Z)
| GBool (b : bool)
| GNil
| GNumber (a : goval).
Section Any.
  Variable oor : ikind -> float -> Z.
  Fixpoint go_any (g : gotree) : Json.gany :=
    match g with
    | GObj m => Json.AMap (map (fun kv => (JsonSpec.utf8 (fst kv), go_any (snd kv))) m)
    | GArr l => Json.ASlice (map go_any l)
    | GStr s => Json.AString (JsonSpec.utf8 s)
    | GBool b => Json.ABool b
    | GNil => Json.ANil
    | GNumber a => any_of_number oor a
    end.
End Any.
(** distinct keys, strings that need no escapes, finite numbers or nil pointers *)
Inductive go_writable : gotree -> Prop :=
| gw_obj m : NoDup (map fst m) -> (forall k g, In (k, g) m -> JsonSpec.plain_string k /\ go_writable g) -> go_writable (GObj m)
| gw_arr l : (forall g, In g l -> go_writable g) -> go_writable (GArr l)
| gw_str s : JsonSpec.plain_string s -> go_writable (GStr s)
| gw_bool b : go_writable (GBool b)
| gw_nil : go_writable GNil
| gw_num a : finite_number a -> go_writable (GNumber a)
| gw_nil_big b : big b -> go_writable (GNumber (GNilBig b)).
(** the JSON tree of a Go tree: every number has a right text, nil is null *)
Inductive same_tree : gotree -> JsonSpec.rtree -> Prop :=
| st_obj m m' : Forall2 (fun a b => fst a = fst b /\ same_tree (snd a) (snd b)) m m' -> same_tree (GObj m) (JsonSpec.RObj m')
| st_arr l l' : Forall2 same_tree l l' -> same_tree (GArr l) (JsonSpec.RArr l')
| st_str s : same_tree (GStr s) (JsonSpec.RStr s)
| st_bool b : same_tree (GBool b) (JsonSpec.RBool b)
| st_nil : same_tree GNil JsonSpec.RNull
| st_num a text : number_text a text -> same_tree (GNumber a) (JsonSpec.RNum text)
| st_nil_big b : same_tree (GNumber (GNilBig b)) JsonSpec.RNull.
