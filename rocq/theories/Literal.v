(** Texts of numbers: the grammars package conv relies on (big.Float.Parse in base 10, big.Rat.SetString and big.Float.String of the Go
    standard library, math/big: natconv.go, floatconv.go, ratconv.go, ftoa.go), and the two functions of package conv about such
    texts that ConvFloat.v leaves out.  Strings are lists of bytes.
    Simplification: exponents do not wrap around at 64 bits (ParseInt has refused those that do not fit, and sums that would wrap
    are outside the ranges tested below). *)
From Coq Require Import ZArith List QArith Bool.
From Verif Require Import Base Float ConvFloat.
From Verif Require Decimal.
Close Scope Q_scope.
Open Scope Z_scope.

(** ** reading (natconv.go) *)
Definition digit_value (ch : Z) : Z :=
  if (48 <=? ch) && (ch <=? 57) then ch - 48 else
  if (97 <=? ch) && (ch <=? 122) then ch - 97 + 10 else
  if (65 <=? ch) && (ch <=? 90) then ch - 65 + 10 else 63.

(** the loop of nat.scan: digits of base [b], underscores if [sep], one point if [frac]; [prev] is '0' after a digit, '_' after an
    underscore and '.' otherwise.  Result: value, number of digits, position of the point, prev, whether an underscore is misplaced,
    and the text left *)
Fixpoint scan_digits (b : Z) (sep frac : bool) (s : list Z) (prev : Z) (inval : bool) (count : Z) (dp : option Z) (z : Z)
    : Z * Z * option Z * Z * bool * list Z :=
  match s with
  | [] => (z, count, dp, prev, inval, [])
  | ch :: r =>
      if (ch =? 46) && frac then scan_digits b sep false r 46 (inval || (prev =? 95)) count (Some count) z
      else if (ch =? 95) && sep then scan_digits b sep frac r 95 (inval || negb (prev =? 48)) count dp z
      else if b <=? digit_value ch then (z, count, dp, prev, inval, s)
      else scan_digits b sep frac r 48 inval (count + 1) dp (z * b + digit_value ch)
  end.
(** nat.scan(r, base, fracOk) for base 0 ([base0]) or 10: value, base, number of digits after the point, text left; [None] for an
    error *)
Definition nat_scan (base0 frac : bool) (s : list Z) : option (Z * Z * Z * list Z) :=
  let '(b, prefix, count, prev, s') :=
    if base0 then
      match s with
      | 48 :: [] => (10, 0, 1, 48, [])
      | 48 :: ch :: r =>
          if (ch =? 98) || (ch =? 66) then (2, 98, 0, 48, r)
          else if (ch =? 111) || (ch =? 79) then (8, 111, 0, 48, r)
          else if (ch =? 120) || (ch =? 88) then (16, 120, 0, 48, r)
          else if frac then (10, 0, 1, 48, ch :: r) else (8, 48, 0, 48, ch :: r)
      | _ => (10, 0, 0, 46, s)
      end
    else (10, 0, 0, 46, s) in
  let '(z, count, dp, prev, inval, rest) := scan_digits b base0 frac s' prev false count None 0 in
  if inval || (prev =? 95) then None
  else if count =? 0 then if prefix =? 48 then Some (0, 10, 0, rest) else None
  else Some (z, b, match dp with Some p => count - p | None => 0 end, rest).

(** scanSign *)
Definition scan_sign (s : list Z) : bool * list Z :=
  match s with 45 :: r => (true, r) | 43 :: r => (false, r) | _ => (false, s) end.

(** scanExponent(r, true, sepOk): exponent, its base and the text left *)
Fixpoint exp_digits (sep : bool) (s : list Z) (prev : Z) (inval has : bool) (v : Z) : Z * bool * Z * bool * list Z :=
  match s with
  | [] => (v, has, prev, inval, [])
  | ch :: r =>
      if (48 <=? ch) && (ch <=? 57) then exp_digits sep r 48 inval true (v * 10 + (ch - 48))
      else if (ch =? 95) && sep then exp_digits sep r 95 (inval || negb (prev =? 48)) has v
      else (v, has, prev, inval, s)
  end.
Definition scan_exponent (sep : bool) (s : list Z) : option (Z * Z * list Z) :=
  match s with
  | [] => Some (0, 10, [])
  | ch :: r =>
      let base := if (ch =? 101) || (ch =? 69) then 10 else if (ch =? 112) || (ch =? 80) then 2 else 0 in
      if base =? 0 then Some (0, 10, s) else
      let '(neg, r) := match r with 45 :: r' => (true, r') | 43 :: r' => (false, r') | _ => (false, r) end in
      let '(v, has, prev, inval, rest) := exp_digits sep r 46 false false 0 in
      let x := if neg then - v else v in
      if negb has then None
      else if (x <? - 2 ^ 63) || (2 ^ 63 <=? x) then None
      else if inval || (prev =? 95) then None
      else Some (x, base, rest)
  end.

(** [b]^[x] as numerator and denominator *)
Definition pow_nd (b x : Z) : Z * Z := if 0 <=? x then (b ^ x, 1) else (1, b ^ (- x)).

(** ** big.Float.Parse(s, 10) and big.ParseFloat(s, 10, ...): the number a text stands for (floatconv.go) *)
Definition is_text (s t : list Z) : bool := if list_eq_dec Z.eq_dec s t then true else false.
Definition float_parse (s : list Z) : option literal :=
  if is_text s [73; 110; 102] || is_text s [105; 110; 102] || is_text s [43; 73; 110; 102] || is_text s [43; 105; 110; 102] then Some (LInf false)
  else if is_text s [45; 73; 110; 102] || is_text s [45; 105; 110; 102] then Some (LInf true)
  else
      let '(neg, s1) := scan_sign s in
      match nat_scan false true s1 with
      | None => None
      | Some (m, _, f, s2) =>
          match scan_exponent false s2 with
          | None => None
          | Some (x, b, s3) =>
              if negb (m =? 0) && negb ((- 2 ^ 31 <=? Z.log2 m + 1 - f + x) && (Z.log2 m + 1 - f + x <=? 2 ^ 31 - 1)) then None else
              match s3 with
              | [] => if m =? 0 then Some (LNum neg 0 1) else
                      let '(pn, pd) := pow_nd b x in Some (LNum neg (m * pn) (10 ^ f * pd))
              | _ => None
              end
          end
      end.

(** ** big.Rat.SetString (ratconv.go); [None] when it fails *)
Fixpoint split_slash (s : list Z) : option (list Z * list Z) :=
  match s with
  | [] => None
  | ch :: r => if ch =? 47 then Some ([], r) else match split_slash r with Some (a, b) => Some (ch :: a, b) | None => None end
  end.
Definition rat_set_string (s : list Z) : option Q :=
  match s with
  | [] => None
  | _ =>
      match split_slash s with
      | Some (a, b) =>
          match a with
          | [] => None
          | _ =>
              let '(neg, a1) := scan_sign a in
              match nat_scan true false a1, nat_scan true false b with
              | Some (n, _, _, []), Some (d, _, _, []) => if d =? 0 then None else Some (Qred (Qmake (if neg then - n else n) (Z.to_pos d)))
              | _, _ => None
              end
          end
      | None =>
          let '(neg, s1) := scan_sign s in
          match nat_scan true true s1 with
          | None => None
          | Some (m, base, f, s2) =>
              match scan_exponent true s2 with
              | Some (x, b, []) =>
                  if m =? 0 then Some 0%Q else
                  let exp5 := (if base =? 10 then - f else 0) + (if b =? 10 then x else 0) in
                  let exp2 := (if base =? 8 then - (3 * f) else if base =? 16 then - (4 * f) else - f) + x in
                  if 1000000 <? Z.abs exp5 then None
                  else if 10000000 <? Z.abs exp2 then None
                  else
                    let '(n5, d5) := pow_nd 5 exp5 in
                    let '(n2, d2) := pow_nd 2 exp2 in
                    Some (Qred (Qmake ((if neg then - m else m) * n5 * n2) (Z.to_pos (d5 * d2))))
              | _ => None
              end
          end
      end
  end.

(** ** big.Float.String, that is Text('g', 10) (ftoa.go) *)
(** the decimal digits without trailing zeros *)
Fixpoint strip (l : list Z) : list Z :=
  match l with
  | [] => []
  | d :: r => match strip r with [] => if d =? 0 then [] else [d] | r' => d :: r' end
  end.
Definition fmt_e (ds : list Z) (dexp : Z) : list Z :=
  let '(d, r) := match ds with d :: r => (d, r) | [] => (0, []) end in
  let x := dexp - 1 in
  Decimal.chr d :: (match r with [] => [] | _ => 46 :: map Decimal.chr r end) ++
  101 :: (if x <? 0 then 45 else 43) :: (if Z.abs x <? 10 then [48] else []) ++ map Decimal.chr (Decimal.dec (Z.abs x)).
Definition digit_at (ds : list Z) (i : Z) : Z := if 0 <=? i then nth (Z.to_nat i) ds 0 else 0.
Definition fmt_f (prec : Z) (ds : list Z) (dexp : Z) : list Z :=
  (if 0 <? dexp then map (fun i => Decimal.chr (digit_at ds (Z.of_nat i))) (seq 0 (Z.to_nat dexp)) else [48]) ++
  (if 0 <? prec then 46 :: map (fun i => Decimal.chr (digit_at ds (dexp + Z.of_nat i))) (seq 0 (Z.to_nat prec)) else []).
Definition format_g (ds : list Z) (dexp : Z) : list Z :=
  let nd := Z.of_nat (length ds) in
  let eprec := if (nd <? 10) && (dexp <=? nd) then nd else 10 in
  if (dexp - 1 <? -4) || (eprec <=? dexp - 1) then fmt_e ds dexp
  else let prec := if dexp <? 10 then nd else 10 in fmt_f (Z.max (prec - dexp) 0) ds dexp.
(** conv/string.go:35-37, BigFloatToString *)
Definition bigfloat_to_string (x : float) : list Z :=
  match x with
  | NaN => []
  | Inf neg => (if neg then 45 else 43) :: [73; 110; 102]
  | Fin neg m e =>
      (if neg then [45] else []) ++
      if m =? 0 then [48] else
      let '(n, d) := frac m e in
      let '(m10, e10) := round 10 10 None n d in
      let full := Decimal.dec m10 in
      format_g (strip full) (Z.of_nat (length full) + e10)
  end.

(** ** package conv *)
(** conv/bigrat.go:47-54, BigFloatToBigRat, with the texts: [None] is the nil pointer *)
Definition bigfloat_to_bigrat_text (ival : float) (oval : option Q) : option err * option Q :=
  if is_inf ival then (Some conv_err, oval) else (None, rat_set_string (bigfloat_to_string ival)).
(** conv/bigrat.go:62-69, StringToBigRat *)
Definition string_to_bigrat (s : list Z) : option err * option Q :=
  match rat_set_string s with Some q => (None, Some q) | None => (Some conv_err, None) end.
(** conv/bigrat.go:78-92, FloatStringToBigRat *)
Definition float_string_to_bigrat (s : list Z) (oval : option Q) : option err * option Q :=
  if is_text s [43; 73; 110; 102] || is_text s [45; 73; 110; 102] || is_text s [78; 97; 78] then (Some conv_err, oval)
  else match float_parse s with
       | None => (Some conv_err, oval)
       | Some _ => (None, snd (string_to_bigrat s))
       end.
(** conv/string.go:47-55, BigRatToNormalizedString *)
Definition bigrat_to_normalized_string (q : Q) : list Z :=
  if Pos.eqb (Qden q) 1 then Decimal.int_to_string (Qnum q) else bigfloat_to_string (bigrat_to_bigfloat q).

Definition str (s : String.string) : list Z := map (fun a => Z.of_N (Ascii.N_of_ascii a)) (String.list_ascii_of_string s).
