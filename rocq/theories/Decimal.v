(** Model of math/decimal.go.  int64 arithmetic wraps; strings are lists of bytes (ASCII codes); scales are nat (uint;
    no modelled computation makes one exceed 36). *)
From Verif Require Import Base GoInt.
Open Scope Z_scope.
Open Scope go_scope.

(** math/decimal.go:124-128, type Decimal. *)
Record decimal := mkD { dval : Z; dscale : nat; denorm : bool }.

(** math/decimal.go:53-73. *)
Definition maxScale : nat := 18.
Definition maxValue : Z := 999999999999999999.
Definition minValue : Z := -999999999999999999.
Definition roundMaxValue : Z := 999999999999999994.
Definition roundMinValue : Z := -999999999999999994.

(** The error messages of math/decimal.go:85-116, told apart by number. *)
Definition ErrInvalidString := UserErr 201.
Definition ErrScaleTooLarge := UserErr 202.
Definition ErrValueTooLarge := UserErr 203.
Definition ErrValueTooSmall := UserErr 204.
Definition ErrTooLargeToRound := UserErr 205.
Definition ErrTooSmallToRound := UserErr 206.
Definition ErrDecOverflow := UserErr 207.
Definition ErrDecUnderflow := UserErr 208.
Definition ErrDecDivZero := UserErr 209.
Definition ErrDivisorTooLarge := UserErr 210.

Definition neg64 (z : Z) : Z := wrapS 64 (- z).
Definition abs64 (z : Z) : Z := if z <? 0 then neg64 z else z.

(** ** Decimal strings *)

(** The decimal digits (0 to 9) of a non-negative number, most significant first; strconv.FormatInt, big.Int.Text. *)
Fixpoint dec_loop (fuel : nat) (n : Z) (acc : list Z) : list Z :=
  match fuel with
  | O => acc
  | S f => if n <? 10 then n :: acc else dec_loop f (n / 10) (n mod 10 :: acc)
  end.
Definition dec (n : Z) : list Z := dec_loop (S (Z.to_nat (Z.log2 n))) n [].

(** Digit characters. *)
Definition chr (d : Z) : Z := d + 48.
Definition is_digit (c : Z) : bool := (48 <=? c) && (c <=? 57).

(** conv/string.go:14-16, IntToString. *)
Definition int_to_string (z : Z) : list Z := if z <? 0 then 45 :: map chr (dec (- z)) else map chr (dec z).

(** The number a list of digits denotes. *)
Definition undec (l : list Z) : Z := fold_left (fun a d => 10 * a + d) l 0.

(** conv/int.go:226-234, StringToInt64 (strconv.ParseInt) on a string of digits only: 0 for the empty string (syntax
    error), the largest int64 when out of range. *)
Definition parse_digits (s : list Z) : Z :=
  let v := undec (map (fun c => c - 48) s) in if v <=? 9223372036854775807 then v else 9223372036854775807.

(** math/decimal.go:485-511, Normalize; the loop runs at most [s] times. *)
Fixpoint norm_loop (s : nat) (v : Z) : Z * nat :=
  match s with
  | O => (v, O)
  | S s' => if Z.rem v 10 =? 0 then norm_loop s' (Z.quot v 10) else (v, S s')
  end.
Definition normalize (d : decimal) : decimal :=
  if dval d =? 0 then mkD (dval d) 0 (denorm d)
  else match dscale d with
       | O => d
       | _ => let neg := dval d <? 0 in
              let '(v, s) := norm_loop (dscale d) (if neg then neg64 (dval d) else dval d) in
              mkD (if neg then neg64 v else v) s (denorm d)
       end.

(** math/decimal.go:515-520, applyNormalization. *)
Definition apply_norm (d : decimal) : decimal :=
  if (dval d =? 0) || negb (denorm d) then normalize d else d.

(** math/decimal.go:132-155, OfDecimal; [normalized] is the optional argument, true when absent. *)
Definition new_decimal (value : Z) (scale : nat) (normalized : bool) : option err * decimal :=
  if (18 <? Z.of_nat scale) then (Some ErrScaleTooLarge, mkD 0 0 false)
  else if maxValue <? value then (Some ErrValueTooLarge, mkD 0 0 false)
  else if value <? minValue then (Some ErrValueTooSmall, mkD 0 0 false)
  else (None, apply_norm (mkD value scale (negb normalized))).

(** The regular expression of math/decimal.go:19 - optional minus, digits, optional dot, digits - is unanchored:
    FindStringSubmatch matches greedily at the start of the string, possibly the empty string. Result: whole match
    empty?, minus?, digits before, digits after.  (The match is leftmost, and the empty match at offset 0 always
    exists, so the leftmost match starts at offset 0.) *)
Fixpoint span_digits (s : list Z) : list Z * list Z :=
  match s with
  | c :: r => if is_digit c then let '(a, b) := span_digits r in (c :: a, b) else ([], s)
  | [] => ([], [])
  end.
Definition match_decimal (s : list Z) : bool * bool * list Z * list Z :=
  let '(minus, s1) := match s with 45 :: r => (true, r) | _ => (false, s) end in
  let '(p2, s2) := span_digits s1 in
  let '(dot, s3) := match s2 with 46 :: r => (true, r) | _ => (false, s2) end in
  let '(p3, _) := span_digits s3 in
  (negb minus && (length p2 =? 0)%nat && negb dot && (length p3 =? 0)%nat, minus, p2, p3).

(** math/decimal.go:165-188, StringToDecimal. *)
Definition string_to_decimal (s : list Z) : option err * decimal :=
  let '(empty, minus, p2, p3) := match_decimal s in
  if (empty || (18 <? length p2 + length p3)%nat) then (Some ErrInvalidString, mkD 0 0 false)
  else let v := parse_digits (p2 ++ p3) in
       (None, mkD (if (minus : bool) then neg64 v else v) (length p3) false).

(** math/decimal.go:196-224, String. *)
Definition to_string (d : decimal) : list Z :=
  let str := int_to_string (if dval d <? 0 then neg64 (dval d) else dval d) in
  let numSig := length str in
  let str1 :=
    if (dscale d =? 0)%nat then str
    else if (numSig <=? dscale d)%nat then 48 :: 46 :: repeat 48 (dscale d - numSig) ++ str
    else firstn (numSig - dscale d) str ++ 46 :: skipn (numSig - dscale d) str in
  if dval d <? 0 then 45 :: str1 else str1.

(** math/decimal.go:249-258, Sign; 455-457, Negate; 461-478, MagnitudeLessThanOne (powersOf10 has 19 entries). *)
Definition sign (d : decimal) : Z := if 0 <? dval d then 1 else if dval d <? 0 then -1 else 0.
Definition negate (d : decimal) : decimal := mkD (neg64 (dval d)) (dscale d) (denorm d).
Definition magnitude_lt_one (d : decimal) : outcome bool :=
  if (18 <? dscale d)%nat then Panicked else Done (abs64 (dval d) <? 10 ^ Z.of_nat (dscale d)).

(** math/decimal.go:328-332: the rounding loop, on the digits in reverse order. Result: digits, and whether a leading 1
    is missing. *)
Fixpoint round_loop (rdig : list Z) (round : bool) : list Z * bool :=
  match rdig with
  | [] => ([], round)
  | dig :: r =>
      if round then
        let round' := dig =? 57 in
        let '(r', c) := round_loop r round' in ((if round' then 48 else dig + 1) :: r', c)
      else (rdig, false)
  end.

(** math/decimal.go:271-349, AdjustDecimalScale, after the swap: [d1] has the larger scale. *)
Definition adjust_larger (d1 d2 : decimal) : outcome (option err * decimal * decimal) :=
  let str1 := int_to_string (if 0 <=? dval d1 then dval d1 else neg64 (dval d1)) in
  let str2 := int_to_string (if 0 <=? dval d2 then dval d2 else neg64 (dval d2)) in
  let len1 := length str1 in
  let d2Capacity := 18 - Z.of_nat (length str2) in
  let scaleDiff := (dscale d1 - dscale d2)%nat in
  if Z.of_nat scaleDiff <=? d2Capacity then
    Done (None, d1, mkD (Nat.iter scaleDiff (fun v => wrapS 64 (v * 10)) (dval d2)) (dscale d1) (denorm d2))
  else if roundMaxValue <? dval d2 then Done (Some ErrTooLargeToRound, d1, d2)
  else if dval d2 <? roundMinValue then Done (Some ErrTooSmallToRound, d1, d2)
  else if (len1 <? scaleDiff)%nat then Panicked  (* dig1[len1-scaleDiff] *)
  else match nth_error str1 (len1 - scaleDiff) with
       | None => Panicked
       | Some c =>
           let dig1 := firstn (len1 - scaleDiff) str1 in
           let '(rd, carry) := round_loop (rev dig1) (53 <=? c) in
           let str1' := if (carry : bool) then 49 :: rev rd else rev rd in
           let v := parse_digits str1' in
           Done (None, mkD (if dval d1 <? 0 then neg64 v else v) (dscale d2) (denorm d1), d2)
       end.
Definition adjust_scale (d1 d2 : decimal) : outcome (option err * decimal * decimal) :=
  if (dscale d1 =? dscale d2)%nat then Done (None, d1, d2)
  else if (dscale d1 <? dscale d2)%nat then
    let! r := adjust_larger d2 d1 in let '(e, a, b) := r in Done (e, b, a)
  else adjust_larger d1 d2.

(** math/decimal.go:367-431, AdjustDecimalFormat. strings.Replace(str, "-", "", 1): the first minus only;
    strings.Split(_, "."). *)
Fixpoint remove_first (c : Z) (s : list Z) : list Z :=
  match s with [] => [] | x :: r => if x =? c then r else x :: remove_first c r end.
(** math/decimal.go:228-231, Precision. *)
Definition precision (d : decimal) : nat := length (remove_first 46 (remove_first 45 (to_string d))).
Fixpoint split_on (c : Z) (s : list Z) : list (list Z) :=
  match s with
  | [] => [[]]
  | x :: r => if x =? c then [] :: split_on c r
              else match split_on c r with p :: ps => (x :: p) :: ps | [] => [[x]] end
  end.
Definition adjust_format (d1 d2 : decimal) : list Z * list Z :=
  let str1 := to_string d1 in
  let str2 := to_string d2 in
  let minus s := match s with c :: _ => c =? 45 | [] => false end in
  let parts1 := split_on 46 (remove_first 45 str1) in
  let parts2 := split_on 46 (remove_first 45 str2) in
  let int1 := nth 0 parts1 [] in
  let int2 := nth 0 parts2 [] in
  let frac1 := nth 1 parts1 [] in
  let frac2 := nth 1 parts2 [] in
  let mi := Nat.max (length int1) (length int2) in
  let mf := Nat.max (length frac1) (length frac2) in
  let bld (m : bool) int frac :=
    let tz := repeat 48 (mf - length frac) in
    (if m then 45 else 32) :: repeat 48 (mi - length int) ++ int ++
    (if (0 <? length frac)%nat || (0 <? length tz)%nat then 46 :: frac ++ tz else []) in
  (bld (minus str1) int1 frac1, bld (minus str2) int2 frac2).

(** CmpOrdered on strings: bytewise lexicographic. *)
Fixpoint lex_cmp (a b : list Z) : Z :=
  match a, b with
  | [], [] => 0
  | [], _ => -1
  | _, [] => 1
  | x :: a', y :: b' => if x <? y then -1 else if y <? x then 1 else lex_cmp a' b'
  end.

(** math/decimal.go:434-451, Cmp. *)
Definition cmp (d o : decimal) : Z :=
  let '(da, oa) := adjust_format d o in
  let compare := lex_cmp da oa in
  let ds := hd 0 da in
  let os := hd 0 oa in
  if ((ds =? 45) && (os =? 32)) || ((ds =? 45) && (os =? 45)) || ((ds =? 32) && (os =? 45)) then - compare else compare.

(** math/decimal.go:528-556, addDecimal; 564-566 Add; 579-581 Sub. *)
Definition add_decimal (d o : decimal) : outcome (option err * decimal) :=
  let! x := adjust_scale d o in
  let '(e, r, oc) := x in
  match e with
  | Some e => Done (Some e, mkD 0 0 false)
  | None =>
      let r := mkD (wrapS 64 (dval r + dval oc)) (dscale r) (denorm r) in
      let over := (sign r =? sign oc) && (sign r =? 1) && (maxValue <? dval r) in
      let under := (sign r =? sign oc) && negb (sign r =? 1) && (dval r <? minValue) in
      if over then Done (Some ErrDecOverflow, mkD 0 0 false)
      else if under then Done (Some ErrDecUnderflow, mkD 0 0 false)
      else Done (None, apply_norm r)
  end.
Definition dec_add (d o : decimal) := add_decimal d o.
Definition dec_sub (d o : decimal) := add_decimal d (negate o).

(** ** Mul: math/decimal.go:602-727 *)

(** lines 648-652: trailing zeros after the decimal point; digits reversed. *)
Fixpoint strip_zeros (rdig : list Z) (rscale : nat) : list Z * nat :=
  match rdig, rscale with
  | 0 :: r, S s => strip_zeros r s
  | _, _ => (rdig, rscale)
  end.
(** lines 660-670: drop digits while there are more than 18; digits reversed. rscale does not reach 0 here. *)
Fixpoint drop_digits (rdig : list Z) (rscale : nat) (carry : Z) : list Z * nat * Z :=
  match rdig with
  | [] => (rdig, rscale, carry)
  | d :: r => if (18 <? length rdig)%nat
              then drop_digits r (rscale - 1) (if 5 <=? d + carry then 1 else 0)
              else (rdig, rscale, carry)
  end.
(** lines 708-715: while rscale > 18. *)
Fixpoint round_scale (n : nat) (rval : Z) : Z :=
  match n with
  | O => rval
  | S n' => round_scale n' (let q := Z.quot rval 10 in if 5 <=? Z.rem rval 10 then wrapS 64 (q + 1) else q)
  end.

Definition mul_err (d o : decimal) : err := if sign d =? sign o then ErrDecOverflow else ErrDecUnderflow.
Definition dec_mul (d o : decimal) : option err * decimal :=
  let fail := (Some (mul_err d o), mkD 0 0 false) in
  let dpos := 0 <=? dval d in
  let opos := 0 <=? dval o in
  let dv := if dpos then dval d else neg64 (dval d) in
  let ov := if opos then dval o else neg64 (dval o) in
  let rscale := (dscale d + dscale o)%nat in
  let rval := wrapS 64 (dv * ov) in
  (* lines 630-687: result value, scale, round19; None: overflow *)
  let step1 : option (Z * nat * bool) :=
    if dv =? 0 then Some (rval, rscale, false)
    else if Z.quot rval dv =? ov then Some (rval, rscale, true)
    else if (rscale =? 0)%nat then None
    else let '(rdig, rscale) := strip_zeros (rev (dec (dv * ov))) rscale in
         if (18 <? Z.of_nat (length rdig) - Z.of_nat rscale) then None
         else let '(rdig, rscale, carry) := drop_digits rdig rscale 0 in
              let rval := undec (rev rdig) in
              if (carry =? 1) && (5 <=? hd 0 rdig) then Some (rval + 1, rscale, true) else Some (rval, rscale, false) in
  match step1 with
  | None => fail
  | Some (rval, rscale, round19) =>
      (* lines 689-706 *)
      let step2 : option Z :=
        if round19 && (maxValue <? rval) then
          if (rscale =? 0)%nat then None
          else let q := Z.quot rval 10 in
               if 5 <=? Z.rem rval 10 then (if maxValue <? q + 1 then None else Some (q + 1)) else Some q
        else Some rval in
      match step2 with
      | None => fail
      | Some rval =>
          let rval := round_scale (rscale - 18) rval in
          let rscale := Nat.min rscale 18 in
          (None, apply_norm (mkD (if Bool.eqb dpos opos then rval else neg64 rval) rscale (denorm d)))
      end
  end.

(** ** Division by integers: math/decimal.go:742-794; [o] is a uint. *)
Definition div_int_quo_rem (d : decimal) (o : Z) : outcome (option err * decimal * decimal) :=
  if o =? 0 then Done (Some ErrDecDivZero, mkD 0 0 false, mkD 0 0 false) else
  let intPart := Nat.iter (dscale d) (fun v => Z.quot v 10) (if 0 <=? dval d then dval d else neg64 (dval d)) in
  let oi := wrapS 64 o in
  if intPart <? oi then Done (Some ErrDivisorTooLarge, mkD 0 0 false, mkD 0 0 false) else
  let q := mkD (wrapS 64 (Z.quot (dval d) oi)) (dscale d) (denorm d) in
  let! x := dec_sub d (mkD (wrapS 64 (dval q * oi)) (dscale d) (denorm d)) in
  match x with
  | (Some _, _) => Panicked
  | (None, r) => Done (None, q, r)
  end.

Definition div_int_add (d : decimal) (o : Z) : outcome (option err * list decimal) :=
  let! x := div_int_quo_rem d o in
  let '(e, q, r) := x in
  match e with
  | Some e => Done (Some e, [])
  | None =>
      if wrapS 64 o <? 0 then Panicked  (* make([]Decimal, o) *)
      else Done (None, map (fun i => mkD (wrapS 64 (dval q + if Z.of_nat i <? dval r then 1 else 0)) (dscale d) (denorm d))
                           (seq 0 (Z.to_nat o)))
  end.

(** ** Div: math/decimal.go:917-1010 *)

(** lines 938-949: while s < 0; [n] is -s. None: overflow. *)
Fixpoint div_scale (n : nat) (q r : Z) : option (Z * Z) :=
  match n with
  | O => Some (q, r)
  | S n' => let q' := wrapS 64 (q * 10) in let r' := wrapS 64 (r * 10) in
            if maxValue <? q' then None else div_scale n' q' r'
  end.
(** lines 965-967 and 973-975. *)
Fixpoint grow_rem (fuel : nat) (nr ov : Z) : outcome Z :=
  match fuel with
  | O => OutOfFuel
  | S f => if nr <? ov then grow_rem f (wrapS 64 (nr * 10)) ov else Done nr
  end.
Fixpoint shrink_digit (fuel : nat) (nr : Z) : outcome Z :=
  match fuel with
  | O => OutOfFuel
  | S f => if 10 <? nr then shrink_digit f (Z.quot nr 10) else Done nr
  end.
(** lines 952-1001: main_loop and the loop inside it, one iteration per unit of fuel; [inner]: control is at the head of
    the inner loop (line 955) rather than of the outer one (line 953). Result: None overflow, Some (q, s). *)
Fixpoint div_main (fuel : nat) (inner : bool) (q r ov : Z) (s : nat) : outcome (option (Z * nat)) :=
  match fuel with
  | O => OutOfFuel
  | S f =>
      if negb inner && (r =? 0) then Done (Some (q, s))
      else if r <? ov then
        let nq := wrapS 64 (q * 10) in
        let nr := wrapS 64 (r * 10) in
        if maxValue <? nq then
          let! nr1 := grow_rem f nr ov in
          let! nr2 := shrink_digit f (Z.quot nr1 ov) in
          Done (Some (if 5 <=? nr2 then wrapS 64 (q + 1) else q, s))
        else if maxValue <? nr then Done None
        else div_main f true nq nr ov (S s)
      else div_main f false (wrapS 64 (q + Z.quot r ov)) (Z.rem r ov) ov s
  end.
Definition dec_div (fuel : nat) (d o : decimal) : outcome (option err * decimal) :=
  let dpos := 0 <=? dval d in
  let opos := 0 <=? dval o in
  let dv := if dpos then dval d else neg64 (dval d) in
  let ov := if opos then dval o else neg64 (dval o) in
  let e := if Bool.eqb dpos opos then ErrDecOverflow else ErrDecUnderflow in
  if ov =? 0 then Panicked else
  match div_scale (dscale o - dscale d) (Z.quot dv ov) (Z.rem dv ov) with
  | None => Done (Some e, mkD 0 0 false)
  | Some (q, r) =>
      let! x := div_main fuel false q r ov (dscale d - dscale o) in
      match x with
      | None => Done (Some e, mkD 0 0 false)
      | Some (q, s) => Done (None, mkD (if Bool.eqb dpos opos then q else neg64 q) s (denorm d))
      end
  end.
