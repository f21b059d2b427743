(** C34-C41, C66: theorems about math.Decimal. *)
From Coq Require Import Qabs.
From Verif Require Import Base GoInt Decimal DecimalSpec DecDigits DecimalProofs DecimalProofs2 DecimalProofs3 DecimalProofs4 DecimalProofs5 DecimalProofs6.
Open Scope Z_scope.
Open Scope go_scope.

(** C34. OfDecimal succeeds iff scale <= 18 and |value| <= 10^18 - 1; the decimal denotes value / 10^scale. *)
Theorem C34_of_decimal v s n : int64 v ->
  ((s <= 18)%nat /\ Z.abs v <= p10 18 - 1 ->
    exists d, new_decimal v s n = (None, d) /\ (value d == Qmake v (Z.to_pos (p10 s)))%Q /\ valid d /\ denorm d = negb n /\
      (n = true -> canonical d) /\ (n = false -> v <> 0 -> dval d = v /\ dscale d = s)) /\
  (~ ((s <= 18)%nat /\ Z.abs v <= p10 18 - 1) -> exists e, new_decimal v s n = (Some e, mkD 0 0 false)).
Proof.
  intros I. rewrite p10_18. unfold new_decimal, maxValue, minValue. split.
  - intros [A B]. destruct (Z.ltb_spec 18 (Z.of_nat s)); [lia|].
    destruct (Z.ltb_spec 999999999999999999 v); [lia|]. destruct (Z.ltb_spec v (-999999999999999999)); [lia|].
    assert (V : valid (mkD v s (negb n))) by (split; cbn [dval dscale]; [rewrite p10_18|]; lia).
    assert (I' : int64 (dval (mkD v s (negb n)))) by exact I.
    exists (apply_norm (mkD v s (negb n))). split; [reflexivity|]. split; [rewrite apply_norm_value by auto; reflexivity|].
    split; [apply apply_norm_valid; auto|]. split; [rewrite apply_norm_denorm by auto; reflexivity|]. split.
    + intros ->. apply apply_norm_canonical; auto.
    + intros -> N. rewrite apply_norm_keep; auto.
  - intros N. destruct (Z.ltb_spec 18 (Z.of_nat s)); [eauto|].
    destruct (Z.ltb_spec 999999999999999999 v); [eauto|]. destruct (Z.ltb_spec v (-999999999999999999)); [eauto|].
    exfalso. apply N. lia.
Qed.
Print Assumptions C34_of_decimal.

Example C34_nonvacuous :
  new_decimal 150 2 true = (None, mkD 15 1 false) /\ new_decimal 150 2 false = (None, mkD 150 2 true) /\
  new_decimal 1000000000000000000 0 true = (Some ErrValueTooLarge, mkD 0 0 false) /\
  new_decimal (-999999999999999999) 18 true = (None, mkD (-999999999999999999) 18 false) /\
  new_decimal 1 19 true = (Some ErrScaleTooLarge, mkD 0 0 false).
Proof. repeat split. Qed.

(** C35. String writes an optional minus, at least one digit, and exactly [scale] digits after the point; the digits
    denote the magnitude of the unscaled value. *)
Theorem C35_string_format d : valid d ->
  exists int frac : list Z, Forall (fun x => 0 <= x <= 9) (int ++ frac) /\ int <> [] /\ length frac = dscale d /\
    undec (int ++ frac) = Z.abs (dval d) /\
    to_string d = (if dval d <? 0 then [45] else []) ++ map chr int ++ (if (dscale d =? 0)%nat then [] else 46 :: map chr frac).
Proof.
  intros V. destruct (to_string_shape d (valid_int64 d V)) as [int [frac [A [B [C [D [E [F G]]]]]]]].
  exists int, frac. split; [apply Forall_app; auto|]. split; [intros ->; cbn in E; lia|]. auto.
Qed.
Print Assumptions C35_string_format.

(** C35. Parsing what String wrote gives back the same value and scale, up to scale 17; at scale 18 it always fails. *)
Theorem C35_round_trip d : valid d ->
  ((dscale d <= 17)%nat -> string_to_decimal (to_string d) = (None, mkD (dval d) (dscale d) false)) /\
  (dscale d = 18%nat -> string_to_decimal (to_string d) = (Some ErrInvalidString, mkD 0 0 false)).
Proof. intros V. split; [exact (string_round_trip d V)|exact (string_round_trip_18 d V)]. Qed.
Print Assumptions C35_round_trip.

(** C35. Precision is the number of digits String shows: the least number of digits that holds the unscaled value with at
    least one digit before the point (so 0.05 has precision 3). *)
Theorem C35_precision d : valid d ->
  (Z.abs (dval d) < p10 (precision d) /\ (S (dscale d) <= precision d)%nat) /\
  forall p, Z.abs (dval d) < p10 p -> (S (dscale d) <= p)%nat -> (precision d <= p)%nat.
Proof. exact (precision_spec d). Qed.
Print Assumptions C35_precision.

Example C35_precision_nonvacuous : precision (mkD (-1250) 2 false) = 4%nat /\ precision (mkD 5 2 false) = 3%nat /\
  precision (mkD 0 0 false) = 1%nat /\ valid (mkD (-1250) 2 false).
Proof. repeat split; try reflexivity; vm_compute; try discriminate; repeat constructor. Qed.

(** C35. What StringToDecimal accepts: an optional minus, digits, an optional point and digits - 18 digits at most, and
    not all four parts absent - followed by anything that does not continue the match. *)
Theorem C35_parse (neg dot : bool) int frac rest :
  Forall (fun x => 0 <= x <= 9) int -> Forall (fun x => 0 <= x <= 9) frac ->
  (forall c r, rest = c :: r -> is_digit c = false /\ (dot = false -> c <> 46) /\ (neg = false -> int = [] -> dot = false -> c <> 45)) ->
  (dot = false -> frac = []) ->
  let s := (if neg then [45] else []) ++ map chr int ++ (if dot then 46 :: map chr frac else []) ++ rest in
  let ok := (neg = true \/ int <> [] \/ dot = true) /\ (length int + length frac <= 18)%nat in
  (ok -> string_to_decimal s = (None, mkD ((if neg then -1 else 1) * undec (int ++ frac)) (length frac) false)) /\
  (~ ok -> string_to_decimal s = (Some ErrInvalidString, mkD 0 0 false)).
Proof.
  intros Hi Hf Hr Hd s ok. unfold s, ok. clear s ok.
  rewrite (string_to_decimal_spec neg dot int frac rest Hi Hf).
  - split.
    + intros [A B]. destruct (Nat.ltb_spec 18 (length int + length frac)); [lia|]. rewrite orb_false_r.
      destruct neg, dot, int; cbn [negb andb length Nat.eqb]; rewrite ?andb_false_r; try reflexivity.
      exfalso. destruct A as [A|[A|A]]; congruence.
    + intros N. destruct (Nat.ltb_spec 18 (length int + length frac)); [rewrite orb_true_r; reflexivity|]. rewrite orb_false_r.
      destruct neg, dot, int; cbn [negb andb length Nat.eqb]; try (exfalso; apply N; split; [|assumption]; (left; reflexivity) || (right; left; discriminate) || (right; right; reflexivity)).
      rewrite (Hd eq_refl). reflexivity.
  - destruct rest as [|c r]; [exact I|]. apply (Hr c r eq_refl).
  - intros E. split; [auto|]. destruct rest as [|c r]; cbn; [discriminate|]. destruct (Hr c r eq_refl) as [_ [X _]]. intro Y. injection Y as Y. exact (X E Y).
  - intros E1 E2 E3. destruct rest as [|c r]; cbn; [discriminate|]. destruct (Hr c r eq_refl) as [_ [_ X]]. intro Y. injection Y as Y. exact (X E1 E2 E3 Y).
Qed.
Print Assumptions C35_parse.

(** "-12.50", "0.05", "1abc", "-", ".", "" *)
Example C35_nonvacuous :
  to_string (mkD (-1250) 2 false) = [45; 49; 50; 46; 53; 48] /\ to_string (mkD 5 2 false) = [48; 46; 48; 53] /\
  string_to_decimal [45; 49; 50; 46; 53; 48] = (None, mkD (-1250) 2 false) /\
  string_to_decimal [49; 97; 98; 99] = (None, mkD 1 0 false) /\ string_to_decimal [45] = (None, mkD 0 0 false) /\
  string_to_decimal [46] = (None, mkD 0 0 false) /\ string_to_decimal [] = (Some ErrInvalidString, mkD 0 0 false).
Proof. repeat split. Qed.

(** C36. Cmp is the order of the denoted rationals, for all decimals. *)
Theorem C36_cmp d o : valid d -> valid o ->
  cmp d o = match (value d ?= value o)%Q with Lt => -1 | Eq => 0 | Gt => 1 end.
Proof.
  intros V1 V2. rewrite cmp_spec by (apply valid_int64; auto). rewrite value_compare.
  destruct (Z.compare_spec (dval d * p10 (dscale o)) (dval o * p10 (dscale d))).
  - rewrite H, Z.sub_diag. reflexivity.
  - apply Z.sgn_neg. lia.
  - apply Z.sgn_pos. lia.
Qed.
Print Assumptions C36_cmp.

(** C36. It is antisymmetric and transitive, and 0 exactly on equal values. *)
Theorem C36_total_order d o x : valid d -> valid o -> valid x ->
  cmp o d = - cmp d o /\ (cmp d o <= 0 -> cmp o x <= 0 -> cmp d x <= 0) /\ (cmp d o = 0 <-> (value d == value o)%Q).
Proof.
  intros V1 V2 V3. rewrite !cmp_spec by (apply valid_int64; auto). split; [|split].
  - rewrite <- Z.sgn_opp. f_equal. ring.
  - rewrite !Z.sgn_nonpos. intros A B. pose proof (p10_pos (dscale d)). pose proof (p10_pos (dscale o)). pose proof (p10_pos (dscale x)).
    assert (C : dval d * p10 (dscale x) * p10 (dscale o) <= dval x * p10 (dscale d) * p10 (dscale o)).
    { transitivity (dval o * p10 (dscale d) * p10 (dscale x)).
      - assert (dval d * p10 (dscale o) * p10 (dscale x) <= dval o * p10 (dscale d) * p10 (dscale x)) by (apply Z.mul_le_mono_nonneg_r; lia). lia.
      - assert (dval o * p10 (dscale x) * p10 (dscale d) <= dval x * p10 (dscale o) * p10 (dscale d)) by (apply Z.mul_le_mono_nonneg_r; lia). lia. }
    apply Z.mul_le_mono_pos_r in C; lia.
  - rewrite value_eq, Z.sgn_null_iff. lia.
Qed.
Print Assumptions C36_total_order.

(** Sign and Negate. *)
Theorem C36_sign_negate d : valid d ->
  sign d = Z.sgn (dval d) /\ valid (negate d) /\ (value (negate d) == - value d)%Q /\ sign (negate d) = - sign d /\
  (dval d = 0 -> negate d = d).
Proof.
  intros V. pose proof (valid_int64 d V) as R. unfold negate. rewrite neg64_id by auto.
  assert (SG : forall e, sign e = Z.sgn (dval e)).
  { intros e. unfold sign. destruct (Z.ltb_spec 0 (dval e)); [symmetry; apply Z.sgn_pos; auto|].
    destruct (Z.ltb_spec (dval e) 0); [symmetry; apply Z.sgn_neg; auto|]. replace (dval e) with 0 by lia. reflexivity. }
  rewrite !SG. cbn [dval]. repeat split.
  - cbn [dval]. rewrite Z.abs_opp. apply V.
  - apply V.
  - apply Z.sgn_opp.
  - intros E. destruct d. cbn in *. rewrite E. reflexivity.
Qed.
Print Assumptions C36_sign_negate.

(** MagnitudeLessThanOne decides |d| < 1. *)
Theorem C36_magnitude d : valid d -> exists b, magnitude_lt_one d = Done b /\ (b = true <-> (Qabs (value d) < 1)%Q).
Proof.
  intros V. pose proof (valid_int64 d V) as R. unfold magnitude_lt_one, abs64. rewrite abs64_abs by auto. fold (p10 (dscale d)).
  destruct (Nat.ltb_spec 18 (dscale d)); [destruct V; lia|]. eexists. split; [reflexivity|].
  unfold Qlt, Qabs, value. cbn [Qnum Qden]. rewrite pos_p10, Z.ltb_lt. lia.
Qed.
Print Assumptions C36_magnitude.

Example C36_nonvacuous : cmp (mkD 15 1 false) (mkD 150 2 false) = 0 /\ cmp (mkD 1 18 false) (mkD (-999999999999999999) 0 false) = 1 /\
  cmp (mkD (-2) 0 false) (mkD (-15) 1 false) = -1 /\ valid (mkD 1 18 false).
Proof. split; [vm_compute; reflexivity|]. split; [vm_compute; reflexivity|]. split; [vm_compute; reflexivity|]. unfold valid; cbn [dscale dval]; split; [vm_compute; discriminate|lia]. Qed.

(** C37. Operands that can be aligned exactly get the larger scale and keep their values. *)
Theorem C37_exact d o : valid d -> valid o -> alignable d o ->
  exists d' o', adjust_scale d o = Done (None, d', o') /\ (value d' == value d)%Q /\ (value o' == value o)%Q /\
    dscale d' = Nat.max (dscale d) (dscale o) /\ dscale o' = Nat.max (dscale d) (dscale o) /\ valid d' /\ valid o' /\
    denorm d' = denorm d /\ denorm o' = denorm o.
Proof.
  intros V1 V2 A. destruct (adjust_alignable d o V1 V2 A) as [E [M1 M2]]. eexists. eexists. split; [exact E|].
  split; [apply rescale_value; lia|]. split; [apply rescale_value; lia|]. cbn [dscale denorm]. repeat split; auto; cbn [dscale]; destruct V1, V2; lia.
Qed.
Print Assumptions C37_exact.

(** C37. Otherwise the operand of larger scale is rounded, halves away from zero, to the smaller scale - unless the other
    operand's magnitude exceeds 999999999999999994 (error), or the operand to round has fewer digits than must be
    dropped (index out of range: panic). [big] is the one with the larger scale. *)
Theorem C37_round big small : valid big -> valid small -> (dscale small < dscale big)%nat -> ~ fits_scale small (dscale big) ->
  let gap := (dscale big - dscale small)%nat in
  let result :=
    if 999999999999999994 <? Z.abs (dval small) then Done (Some (if 0 <? dval small then ErrTooLargeToRound else ErrTooSmallToRound), big, small)
    else if p10 (gap - 1) <=? Z.max 1 (Z.abs (dval big))
    then Done (None, mkD (round_half_away (dval big) (p10 gap)) (dscale small) (denorm big), small)
    else Panicked in
  adjust_scale big small = result /\
  adjust_scale small big = match result with Done (e, a, b) => Done (e, b, a) | Panicked => Panicked | OutOfFuel => OutOfFuel end.
Proof.
  intros V1 V2 L F gap result.
  assert (E : adjust_larger big small = result).
  { unfold result, gap. destruct (Z.ltb_spec 999999999999999994 (Z.abs (dval small))).
    - apply adjust_larger_err; auto.
    - apply adjust_larger_round; auto. }
  unfold adjust_scale. split.
  - destruct (Nat.eqb_spec (dscale big) (dscale small)); [lia|]. destruct (Nat.ltb_spec (dscale big) (dscale small)); [lia|]. exact E.
  - destruct (Nat.eqb_spec (dscale small) (dscale big)); [lia|]. destruct (Nat.ltb_spec (dscale small) (dscale big)); [|lia].
    rewrite E. destruct result as [[[? ?] ?]| |]; reflexivity.
Qed.
Print Assumptions C37_round.

(** 1.5 and 1.25; 1.5 and 18 digits; findings: 0.04 and 18 digits panics; 1.5 and 999999999999999995 is refused although
    1.5 rounds to 2; zero with a decimal of scale 18 rounds that decimal to an integer. *)
Example C37_nonvacuous :
  adjust_scale (mkD 15 1 false) (mkD 125 2 false) = Done (None, mkD 150 2 false, mkD 125 2 false) /\
  adjust_scale (mkD 15 1 false) (mkD 123456789012345678 0 false) = Done (None, mkD 2 0 false, mkD 123456789012345678 0 false) /\
  adjust_scale (mkD 4 2 false) (mkD 123456789012345678 0 false) = Panicked /\
  adjust_scale (mkD 15 1 false) (mkD 999999999999999995 0 false) = Done (Some ErrTooLargeToRound, mkD 15 1 false, mkD 999999999999999995 0 false) /\
  adjust_scale (mkD 123456789012345678 18 false) (mkD 0 0 false) = Done (None, mkD 0 0 false, mkD 0 0 false).
Proof. repeat split. Qed.
Example C37_hypotheses_met : alignable (mkD 15 1 false) (mkD 125 2 false) /\ ~ fits_scale (mkD 123456789012345678 0 false) 1.
Proof. split; [right; left; split; [cbn; lia|vm_compute; discriminate]|vm_compute; intro X; apply X; reflexivity]. Qed.

(** C38. Add, for operands that can be aligned exactly: the exact sum when its magnitude at the common scale is at most
    10^18 - 1, an overflow or underflow error otherwise. *)
Theorem C38_add d o : valid d -> valid o -> alignable d o ->
  let S := Nat.max (dscale d) (dscale o) in
  let sum := dval d * p10 (S - dscale d) + dval o * p10 (S - dscale o) in
  (Z.abs sum <= p10 18 - 1 ->
     exists r, dec_add d o = Done (None, r) /\ (value r == value d + value o)%Q /\ valid r /\ denorm r = denorm d /\
               (denorm d = false -> canonical r)) /\
  (p10 18 - 1 < sum -> dec_add d o = Done (Some ErrDecOverflow, mkD 0 0 false)) /\
  (sum < - (p10 18 - 1) -> dec_add d o = Done (Some ErrDecUnderflow, mkD 0 0 false)).
Proof. exact (add_exact d o). Qed.
Print Assumptions C38_add.

(** C38. Sub likewise. *)
Theorem C38_sub d o : valid d -> valid o -> alignable d o ->
  let S := Nat.max (dscale d) (dscale o) in
  let diff := dval d * p10 (S - dscale d) - dval o * p10 (S - dscale o) in
  (Z.abs diff <= p10 18 - 1 ->
     exists r, dec_sub d o = Done (None, r) /\ (value r == value d - value o)%Q /\ valid r /\ denorm r = denorm d /\
               (denorm d = false -> canonical r)) /\
  (p10 18 - 1 < diff -> dec_sub d o = Done (Some ErrDecOverflow, mkD 0 0 false)) /\
  (diff < - (p10 18 - 1) -> dec_sub d o = Done (Some ErrDecUnderflow, mkD 0 0 false)).
Proof. exact (sub_exact d o). Qed.
Print Assumptions C38_sub.

(** C38. When the operand of larger scale must be rounded (and neither the error nor the panic of C37 occurs), Add is the
    sum of the rounded operand and the other one. *)
Theorem C38_add_rounded d o : valid d -> valid o -> (dscale o < dscale d)%nat -> ~ fits_scale o (dscale d) ->
  Z.abs (dval o) <= 999999999999999994 -> p10 (dscale d - dscale o - 1) <= Z.max 1 (Z.abs (dval d)) ->
  let sum := round_half_away (dval d) (p10 (dscale d - dscale o)) + dval o in
  let result := if Z.abs sum <=? p10 18 - 1 then (None, Qmake sum (Z.to_pos (p10 (dscale o))))
                else (Some (if 0 <? sum then ErrDecOverflow else ErrDecUnderflow), 0%Q) in
  exists r1 r2, dec_add d o = Done (fst result, r1) /\ (value r1 == snd result)%Q /\
                dec_add o d = Done (fst result, r2) /\ (value r2 == snd result)%Q.
Proof. exact (add_rounded d o). Qed.
Print Assumptions C38_add_rounded.

Example C38_nonvacuous :
  dec_add (mkD 15 1 false) (mkD 125 2 false) = Done (None, mkD 275 2 false) /\
  dec_add (mkD 999999999999999999 0 false) (mkD 1 0 false) = Done (Some ErrDecOverflow, mkD 0 0 false) /\
  dec_sub (mkD (-999999999999999999) 0 false) (mkD 1 0 false) = Done (Some ErrDecUnderflow, mkD 0 0 false) /\
  dec_add (mkD 125 2 false) (mkD 75 2 false) = Done (None, mkD 2 0 false) /\
  dec_add (mkD 15 1 false) (mkD 123456789012345678 0 false) = Done (None, mkD 123456789012345680 0 false).
Proof. repeat split. Qed.

(** C39. Normalize keeps the value, has the least scale of all representations, is canonical and idempotent. *)
Theorem C39_normalize d : int64 (dval d) ->
  (value (normalize d) == value d)%Q /\ canonical (normalize d) /\ normalize (normalize d) = normalize d /\
  (forall v s, (value d == Qmake v (Z.to_pos (p10 s)))%Q -> (dscale (normalize d) <= s)%nat) /\
  (valid d -> valid (normalize d)) /\ denorm (normalize d) = denorm d.
Proof.
  intros R. split; [exact (normalize_value d R)|]. destruct (normalize_spec d R) as [k [_ [_ [_ [A B]]]]]. split; [exact A|].
  split; [exact (normalize_idem d R)|]. split; [intros v s; exact (normalize_min d v s R)|]. split; [exact (normalize_valid d)|exact B].
Qed.
Print Assumptions C39_normalize.

(** C39. Equal values normalise to the same unscaled value and scale. *)
Theorem C39_unique d e : int64 (dval d) -> int64 (dval e) -> (value d == value e)%Q ->
  dval (normalize d) = dval (normalize e) /\ dscale (normalize d) = dscale (normalize e).
Proof. exact (normalize_unique d e). Qed.
Print Assumptions C39_unique.

Example C39_nonvacuous : normalize (mkD (-12500) 3 true) = mkD (-125) 1 true /\ normalize (mkD 0 5 false) = mkD 0 0 false /\
  normalize (mkD 1000 2 false) = mkD 10 0 false /\ int64 (-12500).
Proof. repeat split; vm_compute; discriminate. Qed.

(** C40. Mul is exact whenever the product can be represented with 18 digits and a scale of at most 18 - unless the
    product of the unscaled values lies in [10^18, 2^63). *)
Theorem C40_exact d o : valid d -> valid o -> prod d o < p10 18 \/ 2 ^ 63 <= prod d o ->
  representable (value d * value o) ->
  exists r, dec_mul d o = (None, r) /\ (value r == value d * value o)%Q /\ valid r /\ denorm r = denorm d /\
            (denorm d = false -> canonical r).
Proof.
  intros V1 V2 [R|R] RP.
  - apply mul_exact_small; auto. rewrite p10_18 in R. unfold maxValue. lia.
  - apply mul_exact_big; auto.
Qed.
Print Assumptions C40_exact.

(** C40. In particular when the unscaled product has 18 digits and the scales sum to at most 18. *)
Theorem C40_small d o : valid d -> valid o -> prod d o < p10 18 -> (dscale d + dscale o <= 18)%nat ->
  exists r, dec_mul d o = (None, r) /\ (value r == value d * value o)%Q.
Proof.
  intros V1 V2 R S. destruct (C40_exact d o V1 V2 (or_introl R)) as [r [A [B _]]]; [|eauto].
  exists (dval d * dval o), (dscale d + dscale o)%nat. split. { rewrite Z.abs_mul. unfold prod in R. lia. }
  split; auto. rewrite value_mult. unfold Qeq. cbn [Qnum Qden]. rewrite Pos2Z.inj_mul, !pos_p10, p10_add. reflexivity.
Qed.
Print Assumptions C40_small.

(** C40. A product of magnitude 10^18 or more is an overflow (signs equal) or underflow error. *)
Theorem C40_overflow d o : valid d -> valid o -> (inject_Z (p10 18) <= Qabs (value d * value o))%Q ->
  dec_mul d o = (Some (if sign d =? sign o then ErrDecOverflow else ErrDecUnderflow), mkD 0 0 false).
Proof.
  intros V1 V2 Q. apply mul_overflow; auto. rewrite value_mult in Q. unfold Qle, Qabs, inject_Z in Q. cbn [Qnum Qden] in Q.
  rewrite Pos2Z.inj_mul, !pos_p10, <- p10_add, Z.mul_1_r, Z.abs_mul in Q. exact Q.
Qed.
Print Assumptions C40_overflow.

(** C40. More than 18 decimals, 18-digit product: the result at scale 18 is within 5/9 of its last place. *)
Theorem C40_round_scale d o : valid d -> valid o -> prod d o < p10 18 -> (18 < dscale d + dscale o)%nat ->
  exists v, dec_mul d o = (None, apply_norm (mkD v 18 (denorm d))) /\ Z.abs v <= prod d o /\
    9 * Z.abs (v * p10 (dscale d + dscale o - 18) - dval d * dval o) <= 5 * (p10 (dscale d + dscale o - 18) - 1).
Proof.
  intros V1 V2 R S. rewrite p10_18 in R. rewrite mul_small_spec by (auto; unfold maxValue; lia). rewrite Nat.min_r by lia.
  eexists. split; [reflexivity|]. pose proof (prod_nonneg d o). 
  destruct (round_scale_bound (dscale d + dscale o - 18) (prod d o)) as [A B]. { change (2 ^ 63) with 9223372036854775808. lia. }
  rewrite sg_mag. split; [lia|]. rewrite sg_mul. fold (prod d o). rewrite <- Z.mul_assoc, <- Z.mul_sub_distr_l, sg_mag. exact B.
Qed.
Print Assumptions C40_round_scale.

(** C40. A product beyond 64 bits, of magnitude between 0.1 and 10^18, that cannot be represented: the result is the
    product cut to its 18 leading digits, or one unit in the last place more - unless those are eighteen nines. *)
Theorem C40_round_big d o : valid d -> valid o -> 2 ^ 63 <= prod d o ->
  prod d o < p10 18 * p10 (dscale d + dscale o) -> p10 (dscale d + dscale o) <= 10 * prod d o ->
  ~ representable (value d * value o) ->
  exists k, (k <= dscale d + dscale o)%nat /\ p10 17 <= prod d o / p10 k < p10 18 /\ (dscale d + dscale o - k <= 18)%nat /\
    (prod d o / p10 k < p10 18 - 1 ->
     exists v sgn, prod d o / p10 k <= v <= prod d o / p10 k + 1 /\ dval d * dval o = sgn * prod d o /\
       dec_mul d o = (None, apply_norm (mkD (sgn * v) (dscale d + dscale o - k) (denorm d)))).
Proof.
  intros V1 V2 R OV SM NR. destruct (mul_big_round d o V1 V2 R OV SM NR) as [k [A [B [C D]]]].
  exists k. split; auto. split; auto. split; auto. intros X. destruct (D X) as [v [E F]]. exists v, (sg d o). split; auto. split; [apply sg_mul|exact F].
Qed.
Print Assumptions C40_round_big.

(** C40, finding: when 10^18 <= unscaled product < 2^63 and there is a decimal place, one digit is rounded away but the
    scale is not reduced, so the result is ten times too small. *)
Theorem C40_finding_tenfold d o : valid d -> valid o -> p10 18 <= prod d o < 2 ^ 63 -> (1 <= dscale d + dscale o <= 18)%nat ->
  exists v sgn, dec_mul d o = (None, apply_norm (mkD (sgn * v) (dscale d + dscale o) (denorm d))) /\
    dval d * dval o = sgn * prod d o /\ v = (prod d o + 5) / 10.
Proof.
  intros V1 V2 R S. exists ((prod d o + 5) / 10), (sg d o). split; [apply mul_19_digits; auto|]. split; [apply sg_mul|reflexivity].
Qed.
Print Assumptions C40_finding_tenfold.

(** C40, the same finding with more than 18 decimals: the result, at scale 18, is a tenth of the product, rounded. *)
Theorem C40_finding_tenfold_tiny d o : valid d -> valid o -> p10 18 <= prod d o < 2 ^ 63 -> (18 < dscale d + dscale o)%nat ->
  exists v sgn, dec_mul d o = (None, apply_norm (mkD (sgn * v) 18 (denorm d))) /\ dval d * dval o = sgn * prod d o /\
    9 * Z.abs (v * p10 (dscale d + dscale o - 18) - (prod d o + 5) / 10) <= 5 * (p10 (dscale d + dscale o - 18) - 1).
Proof.
  intros V1 V2 R S. rewrite mul_small by (auto; lia). 
  assert (D0 : dval d <> 0). { intro X. unfold prod in R. rewrite X in R. rewrite p10_18 in R. lia. }
  destruct (Z.eqb_spec (dval d) 0); [contradiction|]. cbn [negb]. rewrite finish_19 by (auto; lia). rewrite Nat.min_r by lia.
  eexists _, (sg d o). split; [reflexivity|]. split; [apply sg_mul|]. rewrite p10_18 in R. change (2 ^ 63) with 9223372036854775808 in R.
  destruct (round_scale_bound (dscale d + dscale o - 18) ((prod d o + 5) / 10)) as [_ B]; [|exact B].
  change (2 ^ 63) with 9223372036854775808. split; [apply Z.div_pos; lia|apply Z.div_lt_upper_bound; lia].
Qed.
Print Assumptions C40_finding_tenfold_tiny.
(** C40. A product beyond 64 bits and of magnitude below 0.1: within 3/5 of 10^-18 of the product - unless its 18 leading
    digits are all nines. *)
Theorem C40_round_tiny d o : valid d -> valid o -> 2 ^ 63 <= prod d o -> 10 * prod d o < p10 (dscale d + dscale o) ->
  (forall k, prod d o / p10 k <> p10 18 - 1) ->
  exists r, dec_mul d o = (None, r) /\ (Qabs (value r - value d * value o) <= Qmake 3 (Z.to_pos (5 * p10 18)))%Q.
Proof. exact (mul_tiny d o). Qed.
Print Assumptions C40_round_tiny.
(** C40. Eighteen nines, then anything: the nines; or, when the digits cut off are rounded up, an overflow error for an integer
    result and 10^17 at the same scale otherwise (finding: ten times too small again). *)
Theorem C40_nines d o k : valid d -> valid o -> 2 ^ 63 <= prod d o -> (k <= dscale d + dscale o <= 18 + k)%nat ->
  prod d o / p10 k = p10 18 - 1 ->
  exists sgn, dval d * dval o = sgn * prod d o /\ let s := (dscale d + dscale o - k)%nat in
    (dec_mul d o = (None, apply_norm (mkD (sgn * (p10 18 - 1)) s (denorm d))) \/
     s = 0%nat /\ dec_mul d o = (Some (if sign d =? sign o then ErrDecOverflow else ErrDecUnderflow), mkD 0 0 false) \/
     (0 < s)%nat /\ dec_mul d o = (None, apply_norm (mkD (sgn * p10 17) s (denorm d)))).
Proof.
  intros V1 V2 R K NN. exists (sg d o). split; [apply sg_mul|]. cbv zeta. set (S := (dscale d + dscale o)%nat) in *.
  pose proof (p10_pos k) as KP. pose proof (Z.div_mod (prod d o) (p10 k) ltac:(lia)) as DM. pose proof (Z.mod_pos_bound (prod d o) (p10 k) ltac:(lia)) as MB. rewrite NN in DM.
  assert (OV : prod d o < p10 18 * p10 S). { pose proof (p10_mono k S ltac:(lia)). rewrite p10_18 in *. nia. }
  pose proof (mul_big_cases d o V1 V2 R OV) as C0. cbv zeta in C0. fold S in C0. destruct C0 as [[X [s [XR [Ls [E M]]]]]|[k' [K' [B M]]]].
  - assert (Q : (S - s)%nat = k).
    { unfold maxValue in XR. rewrite p10_18 in *. destruct (Nat.lt_trichotomy (S - s) k) as [L|[L|L]]; auto; exfalso.
      - assert (10 * p10 (S - s) <= p10 k). { rewrite <- p10_S. apply p10_mono. lia. } pose proof (p10_pos (S - s)). nia.
      - rewrite (p10_sub (S - s) k) in E by lia. destruct (S - s - k)%nat as [|j] eqn:J; [lia|]. rewrite p10_S in E.
        assert (X * (10 * p10 j) = 1000000000000000000 - 1) by nia. lia. }
    assert (X = p10 18 - 1). { rewrite Q in E. nia. }
    rewrite M, finish_plain by lia. subst X. replace s with (S - k)%nat by lia. left.
    replace (S - k - 18)%nat with 0%nat by lia. cbn [round_scale]. rewrite Nat.min_l by lia. reflexivity.
  - assert (Q : k' = k).
    { pose proof (p10_pos k') as KP'. pose proof (Z.div_mod (prod d o) (p10 k') ltac:(lia)) as DM'. pose proof (Z.mod_pos_bound (prod d o) (p10 k') ltac:(lia)) as MB'.
      set (F := prod d o / p10 k') in *. change (p10 17) with 100000000000000000 in B. rewrite p10_18 in *.
      destruct (Nat.lt_trichotomy k' k) as [L|[L|L]]; auto; exfalso.
      - assert (10 * p10 k' <= p10 k). { rewrite <- p10_S. apply p10_mono. lia. } nia.
      - assert (10 * p10 k <= p10 k'). { rewrite <- p10_S. apply p10_mono. lia. } nia. }
    subst k'. rewrite NN in M. destruct M as [M|M].
    + left. rewrite M, finish_plain by (rewrite p10_18; unfold maxValue; lia). replace (S - k - 18)%nat with 0%nat by lia. cbn [round_scale]. rewrite Nat.min_l by lia. reflexivity.
    + right. replace (p10 18 - 1 + 1) with (p10 18) in M by lia. destruct (Nat.eq_dec (S - k) 0) as [Z0|Z0].
      * left. split; auto. rewrite M, Z0. reflexivity.
      * right. split; [lia|]. rewrite M, finish_19 by (try lia; rewrite p10_18; change (2 ^ 63) with 9223372036854775808; lia).
        replace (S - k - 18)%nat with 0%nat by lia. cbn [round_scale]. rewrite Nat.min_l by lia. replace ((p10 18 + 5) / 10) with (p10 17) by (vm_compute; reflexivity). reflexivity.
Qed.
Print Assumptions C40_nines.

(** 1.5 * 2.5; 300000000.1 * 3000000001 is 900000000600000000.1 but the result is 90000000060000000;
    1.59647611595093181 * 6.26379555577852009 = 9.99999999999999999906 gives 1;
    8.043103123 * 7.254373359 = 58.347673019180900157 is cut to ...9001 rather than rounded to ...9002. *)
Example C40_nonvacuous :
  dec_mul (mkD 15 1 false) (mkD (-25) 1 false) = (None, mkD (-375) 2 false) /\
  dec_mul (mkD 3000000001 1 false) (mkD 3000000001 0 false) = (None, mkD 90000000060000000 0 false) /\
  dec_mul (mkD 159647611595093181 17 false) (mkD 626379555577852009 17 false) = (None, mkD 1 0 false) /\
  dec_mul (mkD 8043103123 9 false) (mkD 7254373359 9 false) = (None, mkD 583476730191809001 16 false) /\
  dec_mul (mkD 500000000000000000 17 false) (mkD 400000000000000000 17 false) = (None, mkD 20 0 false) /\
  dec_mul (mkD 999999999999999999 0 false) (mkD (-2) 0 false) = (Some ErrDecUnderflow, mkD 0 0 false).
Proof. repeat split. Qed.

(** C41. DivIntQuoRem, for divisors below 2^63: an error when the divisor exceeds the integer part of |d|; otherwise
    quotient * divisor + remainder = d exactly, both truncated towards zero at d's scale. *)
Theorem C41_quo_rem d o : valid d -> 1 <= o < 2 ^ 63 ->
  (Z.abs (dval d) / p10 (dscale d) < o -> div_int_quo_rem d o = Done (Some ErrDivisorTooLarge, mkD 0 0 false, mkD 0 0 false)) /\
  (o <= Z.abs (dval d) / p10 (dscale d) ->
     exists q r, div_int_quo_rem d o = Done (None, q, r) /\ (value q * inject_Z o + value r == value d)%Q /\
       dval q = Z.quot (dval d) o /\ dscale q = dscale d /\ (value r == Qmake (Z.rem (dval d) o) (Z.to_pos (p10 (dscale d))))%Q /\
       (Qabs (value r) < Qmake o (Z.to_pos (p10 (dscale d))))%Q /\ (0 <= value r * value d)%Q).
Proof. exact (quo_rem_exact d o). Qed.
Print Assumptions C41_quo_rem.

Theorem C41_by_zero d : div_int_quo_rem d 0 = Done (Some ErrDecDivZero, mkD 0 0 false, mkD 0 0 false) /\
  div_int_add d 0 = Done (Some ErrDecDivZero, []).
Proof. split; reflexivity. Qed.
Print Assumptions C41_by_zero.

(** C41. DivIntAdd, non-negative d, when the remainder keeps its last digit (d is not normalised, or has no decimals, or
    the remainder's last digit is not 0): [o] parts, each the quotient or one unit more, larger ones first, whose sum is
    exactly d. *)
Theorem C41_parts d o : valid d -> 1 <= o < 2 ^ 63 -> o <= Z.abs (dval d) / p10 (dscale d) -> 0 <= dval d ->
  denorm d = true \/ dscale d = 0%nat \/ Z.rem (dval d) o = 0 \/ Z.rem (dval d) o mod 10 <> 0 ->
  exists parts, div_int_add d o = Done (None, parts) /\ Z.of_nat (length parts) = o /\ (total parts == value d)%Q /\
    (forall x, In x parts -> dscale x = dscale d /\ (dval x = Z.quot (dval d) o \/ dval x = Z.quot (dval d) o + 1)) /\
    (forall i j x y, (i <= j)%nat -> nth_error parts i = Some x -> nth_error parts j = Some y -> dval y <= dval x).
Proof. exact (parts_exact d o). Qed.
Print Assumptions C41_parts.

(** C41, finding: in the remaining non-negative cases the parts sum to less than d; for negative d with a remainder their
    sum is above d. *)
Theorem C41_finding_parts d o : valid d -> 1 <= o < 2 ^ 63 -> o <= Z.abs (dval d) / p10 (dscale d) ->
  (0 <= dval d -> denorm d = false -> dscale d <> 0%nat -> Z.rem (dval d) o <> 0 -> Z.rem (dval d) o mod 10 = 0 ->
     exists parts, div_int_add d o = Done (None, parts) /\ (total parts < value d)%Q) /\
  (dval d < 0 -> Z.rem (dval d) o <> 0 -> exists parts, div_int_add d o = Done (None, parts) /\ (value d < total parts)%Q).
Proof. exact (parts_wrong d o). Qed.
Print Assumptions C41_finding_parts.

(** 100.00 / 3; findings: 13.1 / 11 (remainder 1.0, shortened to 1); -10.0 / 3; a divisor of 2^63 is not refused. *)
Example C41_nonvacuous :
  div_int_quo_rem (mkD 10000 2 true) 3 = Done (None, mkD 3333 2 true, mkD 1 2 true) /\
  div_int_add (mkD 10000 2 true) 3 = Done (None, [mkD 3334 2 true; mkD 3333 2 true; mkD 3333 2 true]) /\
  div_int_add (mkD 131 1 false) 11 = Done (None, mkD 12 1 false :: repeat (mkD 11 1 false) 10) /\
  div_int_add (mkD (-100) 1 true) 3 = Done (None, repeat (mkD (-33) 1 true) 3) /\
  div_int_quo_rem (mkD 5 0 false) (2 ^ 63) = Done (None, mkD 0 0 false, mkD 5 0 false).
Proof. repeat split. Qed.

(** C66. On inputs where the 64-bit arithmetic does not wrap, Div returns a result (it terminates, without error), equal
    to the quotient or having 18 digits and within one unit in the last place of it. *)
Theorem C66_div fuel d o : (110 <= fuel)%nat -> valid d -> valid o -> dval o <> 0 -> div_safe d o ->
  exists r, dec_div fuel d o = Done (None, r) /\ Z.abs (dval r) <= p10 18 - 1 /\ denorm r = denorm d /\
    ((value r == value d / value o)%Q \/
     (p10 17 <= Z.abs (dval r) /\ (Qabs (value r - value d / value o) <= Qmake 1 (Z.to_pos (p10 (dscale r))))%Q)).
Proof. exact (div_close fuel d o). Qed.
Print Assumptions C66_div.

(** C66. Division by zero panics (Go's integer division). *)
Theorem C66_by_zero fuel d o : dval o = 0 -> dec_div fuel d o = Panicked.
Proof. intros E. unfold dec_div. rewrite E. reflexivity. Qed.
Print Assumptions C66_by_zero.

(** C66, finding: 864691128455135232 / 9000000000000000.00 never returns. *)
Theorem C66_finding_hang fuel : dec_div fuel (mkD 864691128455135232 0 false) (mkD 900000000000000000 2 false) = OutOfFuel.
Proof. exact (div_hang fuel). Qed.
Print Assumptions C66_finding_hang.

(** 5 / 9; 1.03075 / 0.25; -5001 / 200; findings: 20 / 21 and 950000000000000000 / 0.1 are garbage (q * 10 wraps),
    70368744177664 / 0.100000000000000000 is 0 (r * 10 wraps to 0), the scale of 0.000000000000000001 / 3 is 36. *)
Example C66_nonvacuous :
  dec_div 110 (mkD 5 0 false) (mkD 9 0 false) = Done (None, mkD 555555555555555556 18 false) /\
  dec_div 110 (mkD 103075 5 false) (mkD 25 2 false) = Done (None, mkD 4123 3 false) /\
  dec_div 110 (mkD (-5001) 0 false) (mkD 200 0 false) = Done (None, mkD (-25005) 3 false) /\
  dec_div 110 (mkD 20 0 false) (mkD 21 0 false) = Done (None, mkD (-8922934549900027806) 19 false) /\
  dec_div 110 (mkD 950000000000000000 0 false) (mkD 1 1 false) = Done (None, mkD (-8946744073709551616) 0 false) /\
  dec_div 110 (mkD 70368744177664 0 false) (mkD 100000000000000000 18 false) = Done (None, mkD 0 0 false) /\
  dec_div 110 (mkD 1 18 false) (mkD 3 0 false) = Done (None, mkD 333333333333333333 36 false).
Proof. repeat split. Qed.
Example C66_hypotheses_met : div_safe (mkD (-5001) 0 false) (mkD 200 0 false).
Proof.
  split; [vm_compute; discriminate|]. split; [vm_compute; discriminate|]. intros n [A B]. unfold dividend in *. cbn [dval dscale Nat.sub] in *.
  change (Z.abs (-5001) * p10 0) with 5001 in *. change (Z.abs 200) with 200 in *. rewrite p10_18 in B.
  destruct (Nat.le_gt_cases n 16) as [L|L].
  - assert (p10 n <= p10 16) by (apply p10_mono; auto). change (p10 16) with 10000000000000000 in H.
    assert (5001 * p10 n / 200 <= 5001 * 10000000000000000 / 200) by (apply Z.div_le_mono; lia).
    change (5001 * 10000000000000000 / 200) with 250050000000000000 in H0. lia.
  - assert (p10 17 <= p10 n) by (apply p10_mono; lia). change (p10 17) with 100000000000000000 in H.
    assert (5001 * 100000000000000000 / 200 <= 5001 * p10 n / 200) by (apply Z.div_le_mono; lia).
    change (5001 * 100000000000000000 / 200) with 2500500000000000000 in H0. lia.
Qed.
