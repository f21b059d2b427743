(** Model of encoding/json/value.go with the memory behind maps and slices: which Values, maps and slices see each other's changes. *)
From Verif Require Import Base GoMap SliceMem Decimal Union Rest Json.
Open Scope go_scope.
Open Scope nat_scope.

(** encoding/json/value.go:67-70, Value: an object refers to a map (None is the nil map), an array is a slice header. *)
Inductive hval : Type :=
| HInvalid
| HObj (r : option nat)
| HArr (s : slice)
| HStr (s : str)
| HNum (s : str)
| HBool (b : bool)
| HNull.
(** Values of type any, as in [gany], and the types of ToValue's constraint that toValue does not look for. *)
Inductive hany : Type :=
| GMap (r : option nat)          (* map[string]any *)
| GSlice (s : slice)             (* []any *)
| GBool (b : bool)
| GNil
| GString (s : str)
| GNumString (s : str)
| GNamedString (s : str)
| GInt (z : Z)
| GOther (r : str + err)
| GMapV (r : option nat)         (* map[string]Value *)
| GSliceV (s : slice)            (* []Value *)
| GValue (v : hval).             (* Value *)
Global Instance Zero_hval : Zero hval := HInvalid.
Global Instance Zero_hany : Zero hany := GNil.

(** The memory: the maps and the arrays behind slices, of elements any and of elements Value. *)
Record heap : Type := mkH { maps_a : list (list (str * hany)); arrs_a : mem hany; maps_v : list (list (str * hval)); arrs_v : mem hval }.

(** the entries range goes through; a nil map has none *)
Definition entries {A} (maps : list (list A)) (r : option nat) : outcome (list A) :=
  match r with
  | None => Done []
  | Some a => match nth_error maps a with Some m => Done m | None => Panicked end
  end.
(** m[k] = x for a map that is not nil *)
Definition put {A} (maps : list (list (str * A))) (a : nat) (k : str) (x : A) : list (list (str * A)) :=
  firstn a maps ++ mset str_eqb (nth a maps []) k x :: skipn (S a) maps.
Definition put_v (h : heap) (a : nat) (k : str) (x : hval) : heap := mkH (maps_a h) (arrs_a h) (put (maps_v h) a k x) (arrs_v h).
Definition put_a (h : heap) (a : nat) (k : str) (x : hany) : heap := mkH (put (maps_a h) a k x) (arrs_a h) (maps_v h) (arrs_v h).
(** s[i] = x *)
Definition set_v (h : heap) (s : slice) (i : nat) (x : hval) : outcome heap :=
  let! m := sset (arrs_v h) s i x in Done (mkH (maps_a h) (arrs_a h) (maps_v h) m).
Definition set_a (h : heap) (s : slice) (i : nat) (x : hany) : outcome heap :=
  let! m := sset (arrs_a h) s i x in Done (mkH (maps_a h) m (maps_v h) (arrs_v h)).

(** encoding/json/value.go:218-239, numberToValue *)
Definition number_h (a : hany) : hval * option err :=
  match a with
  | GNumString s => if number_match s then (HNum s, None) else (HInvalid, Some errNotNumber)
  | GInt z => (HNum (int_to_string z), None)
  | GOther (inl s) => (HNum s, None)
  | GOther (inr e) => (HInvalid, Some e)
  | _ => (HInvalid, Some errConvert)
  end.

(** encoding/json/value.go:81-125, toValue, with MapToValue on a map[string]any (146-170), which makes a new map, and SliceToValue on a
    []any (181-205), which makes a new slice of the same length.  A map or slice of Values and a Value are none of the types toValue
    looks for; a nil one is taken for nil.  The fuel bounds the depth of the recursion. *)
Fixpoint to_value (fuel : nat) (h : heap) (a : hany) : outcome (hval * option err * heap) :=
  match fuel with
  | 0 => OutOfFuel
  | S f =>
      match a with
      | GMap r =>
          let! es := entries (maps_a h) r in
          let mp := length (maps_v h) in
          (fix go (es : list (str * hany)) (h : heap) : outcome (hval * option err * heap) :=
             match es with
             | [] => Done (HObj (Some mp), None, h)
             | (k, v) :: es' =>
                 let! (jval, e, h1) := to_value f h v in
                 match e with
                 | Some e => Done (HInvalid, Some e, h1)
                 | None => go es' (put_v h1 mp k jval)
                 end
             end) es (mkH (maps_a h) (arrs_a h) (maps_v h ++ [[]]) (arrs_v h))
      | GSlice s =>
          let (m, slc) := smake (arrs_v h) (slen s) (slen s) in
          (fix go (l : list hany) (i : nat) (h : heap) : outcome (hval * option err * heap) :=
             match l with
             | [] => Done (HArr slc, None, h)
             | v :: l' =>
                 let! (jval, e, h1) := to_value f h v in
                 match e with
                 | Some e => Done (HInvalid, Some e, h1)
                 | None => let! h2 := set_v h1 slc i jval in go l' (S i) h2
                 end
             end) (contents (arrs_a h) s) 0 (mkH (maps_a h) (arrs_a h) (maps_v h) m)
      | GBool b => Done (HBool b, None, h)
      | GNil | GMapV None | GSliceV None => Done (HNull, None, h)
      | GString s => Done (HStr s, None, h)
      | GNamedString _ => Panicked
      | _ => Done (number_h a, h)
      end
  end.

(** encoding/json/value.go:146-170, MapToValue on a map[string]Value; 181-205, SliceToValue on a []Value: the map and the slice
    themselves. *)
Definition map_to_value (r : option nat) : hval := HObj r.
Definition slice_to_value (s : slice) : hval := HArr s.
(** encoding/json/value.go:263-280, AsMap, AsSlice *)
Definition as_map (v : hval) : outcome (option nat) := match v with HObj r => Done r | _ => Panicked end.
Definition as_slice (v : hval) : outcome slice := match v with HArr s => Done s | _ => Panicked end.

(** encoding/json/value.go:322-343, ToAny, with ToMap (347-359), which fills a new map, and ToSlice (364-376), which appends to a new
    slice; [ex] is the spare capacity append allocates. *)
Section Any.
  Variable ex : nat -> nat -> nat.
  Fixpoint to_any (fuel : nat) (h : heap) (v : hval) : outcome (hany * heap) :=
    match fuel with
    | 0 => OutOfFuel
    | S f =>
        match v with
        | HObj r =>
            let! es := entries (maps_v h) r in
            let m := length (maps_a h) in
            (fix go (es : list (str * hval)) (h : heap) : outcome (hany * heap) :=
               match es with
               | [] => Done (GMap (Some m), h)
               | (k, x) :: es' => let! (a, h1) := to_any f h x in go es' (put_a h1 m k a)
               end) es (mkH (maps_a h ++ [[]]) (arrs_a h) (maps_v h) (arrs_v h))
        | HArr s =>
            let (m, t) := smake (arrs_a h) 0 0 in
            (fix go (l : list hval) (t : slice) (h : heap) : outcome (hany * heap) :=
               match l with
               | [] => Done (GSlice t, h)
               | x :: l' =>
                   let! (a, h1) := to_any f h x in
                   let (m, t') := sappend ex (arrs_a h1) t [a] in
                   go l' t' (mkH (maps_a h1) m (maps_v h1) (arrs_v h1))
               end) (contents (arrs_v h) s) t (mkH (maps_a h) m (maps_v h) (arrs_v h))
        | HStr s => Done (GString s, h)
        | HNum s => Done (GNumString s, h)
        | HBool b => Done (GBool b, h)
        | HInvalid | HNull => Done (GNil, h)
        end
    end.
  (** encoding/json/value.go:347-359, ToMap, and 364-376, ToSlice: a panic unless the Value is an object or an array; the loops are
      those above. *)
  Definition to_map (fuel : nat) (h : heap) (v : hval) : outcome (hany * heap) := match v with HObj _ => to_any fuel h v | _ => Panicked end.
  Definition to_slice (fuel : nat) (h : heap) (v : hval) : outcome (hany * heap) := match v with HArr _ => to_any fuel h v | _ => Panicked end.
End Any.
