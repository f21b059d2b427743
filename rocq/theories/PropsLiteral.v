(** Property theorems C94 and C95: texts of numbers read and written by package conv. *)
From Coq Require Qcanon.
From Coq Require Import ZArith List QArith Qpower Bool Lia String.
From Verif Require Import Base Float FloatSpec FloatProofs FloatProofs2 ConvFloat ConvFloatSpec ConvFloatProofs3 Literal LiteralSpec
  LiteralProofs LiteralProofs2 LiteralProofs3.
Close Scope Q_scope.
Open Scope Z_scope.

Local Ltac digits_tac := unfold digits_only; vm_compute str; repeat apply Forall_cons; try apply Forall_nil; lia.

(** C94. FloatStringToBigRat.  A decimal numeral (optional sign, digits with at most one point, optional exponent) becomes exactly
    the number it stands for, in lowest terms ... *)
Theorem C94_float_string_exact s neg m f b x o : numeral s neg m f b x -> int64 x -> rat_range m f b x ->
  float_range m f x -> float_string_to_bigrat s o = (None, Some (Qred (numeral_value neg m f b x))).
Proof.
  intros H I64 R F. destruct (float_parse_numeral _ _ _ _ _ _ H I64 F) as (l & E & _). destruct (rat_numeral _ _ _ _ _ _ H I64) as [K _].
  destruct (numeral_inv _ _ _ _ _ _ H) as (a & t & Es & M & X & N & I1 & I2).
  unfold float_string_to_bigrat, string_to_bigrat. rewrite E, (K R).
  replace (is_text s [43; 73; 110; 102] || is_text s [45; 73; 110; 102] || is_text s [78; 97; 78]) with false; [reflexivity|].
  symmetry. rewrite !orb_false_iff, !is_text_false. split; [split|]; intros ->.
  - apply I2. cbn. auto.
  - apply I1. cbn. auto.
  - cbn in Es. injection Es as <- Es. destruct (mantissa_head _ _ _ M) as (c & r & -> & Hc). cbn in Es. injection Es as <- _. lia.
Qed.
Print Assumptions C94_float_string_exact.
(** ... any other text is refused with an error and the output is left alone (a ratio like 5/4, the names of special values) ... *)
Theorem C94_float_string_refused s o : (forall neg m f b x, ~ numeral s neg m f b x) -> (forall neg, ~ inf_name s neg) ->
  float_string_to_bigrat s o = (Some conv_err, o).
Proof.
  intros N I. unfold float_string_to_bigrat. destruct (is_text s _ || is_text s _ || is_text s _); [reflexivity|].
  destruct (float_parse s) as [l|] eqn:E; [|reflexivity]. destruct (float_parse_only s l E) as [(neg & A & _)|(neg & m & f & b & x & A & _)]; [destruct (I neg A)|destruct (N _ _ _ _ _ A)].
Qed.
Print Assumptions C94_float_string_refused.
Theorem C94_ratio_refused s o : In 47 s -> float_string_to_bigrat s o = (Some conv_err, o).
Proof.
  intros H. apply C94_float_string_refused.
  - intros neg m f b x X. exact (no_slash_numeral _ _ _ _ _ _ X H).
  - intros neg X. destruct neg; cbn in X; decompose [or] X; subst s; cbn in H; decompose [or] H; try discriminate; assumption.
Qed.
Print Assumptions C94_ratio_refused.
Theorem C94_named_refused o : Forall (fun s => float_string_to_bigrat s o = (Some conv_err, o)) [str "+Inf"; str "-Inf"; str "NaN"; str ""; str "nan"].
Proof. repeat constructor. Qed.
Print Assumptions C94_named_refused.
(** ... but (finding) the other names of the infinities, and numerals whose power of ten lies beyond a million, are accepted: the
    error is nil and the output is a nil pointer. *)
Theorem C94_accepted_as_nil o :
  Forall (fun s => float_string_to_bigrat s o = (None, None)) [str "Inf"; str "inf"; str "+inf"; str "-inf"] /\
  (forall s neg m f b x, numeral s neg m f b x -> int64 x -> float_range m f x -> ~ rat_range m f b x ->
     float_string_to_bigrat s o = (None, None)).
Proof.
  split; [repeat constructor|]. intros s neg m f b x H I64 F R. destruct (float_parse_numeral _ _ _ _ _ _ H I64 F) as (l & E & _). destruct (rat_numeral _ _ _ _ _ _ H I64) as [_ K].
  destruct (numeral_inv _ _ _ _ _ _ H) as (a & t & Es & M & X & N & I1 & I2).
  unfold float_string_to_bigrat, string_to_bigrat. rewrite E, (K R).
  replace (is_text s [43; 73; 110; 102] || is_text s [45; 73; 110; 102] || is_text s [78; 97; 78]) with false; [reflexivity|].
  symmetry. rewrite !orb_false_iff, !is_text_false. split; [split|]; intros ->.
  - apply I2. cbn. auto.
  - apply I1. cbn. auto.
  - cbn in Es. injection Es as <- Es. destruct (mantissa_head _ _ _ M) as (c & r & -> & Hc). cbn in Es. injection Es as <- _. lia.
Qed.
Print Assumptions C94_accepted_as_nil.
Theorem C94_large_exponent_refuted o : float_string_to_bigrat (str "1e1000001") o = (None, None) /\ float_string_to_bigrat (str "1e-1000001") o = (None, None).
Proof.
  assert (D : digit_string (str "1000001")) by (split; [discriminate|digits_tac]).
  assert (M : mantissa (str "1") 1 0) by (apply (mant_int (str "1")); split; [discriminate|digits_tac]).
  split.
  - apply (proj2 (C94_accepted_as_nil o) _ false 1 0 10 1000001); unfold int64, float_range, rat_range; cbn [Z.eqb Pos.eqb]; try lia.
    + apply (num_plain (str "1") (101 :: str "1000001")); [exact M|]. apply exp_ten; [auto|]. apply (dt_plain (str "1000001")), D.
    + right. vm_compute. split; congruence.
  - apply (proj2 (C94_accepted_as_nil o) _ false 1 0 10 (-1000001)); unfold int64, float_range, rat_range; cbn [Z.eqb Pos.eqb]; try lia.
    + apply (num_plain (str "1") (101 :: 45 :: str "1000001")); [exact M|]. apply exp_ten; [auto|]. apply (dt_minus (str "1000001")), D.
    + right. vm_compute. split; congruence.
Qed.
Print Assumptions C94_large_exponent_refuted.
(** StringToBigRat reads the same numerals exactly, and otherwise fails with a nil output ... *)
Theorem C94_string_to_bigrat s neg m f b x : numeral s neg m f b x -> int64 x ->
  (rat_range m f b x -> string_to_bigrat s = (None, Some (Qred (numeral_value neg m f b x)))) /\
  (~ rat_range m f b x -> string_to_bigrat s = (Some conv_err, None)).
Proof.
  intros H I64. unfold string_to_bigrat. destruct (rat_numeral _ _ _ _ _ _ H I64) as [A B]. split; intros R; [rewrite (A R)|rewrite (B R)]; reflexivity.
Qed.
Print Assumptions C94_string_to_bigrat.
(** ... and ratios of two written integers, except with a zero denominator ... *)
Theorem C94_ratio a d : 0 <= d ->
  string_to_bigrat (integer_to_string a ++ str "/" ++ integer_to_string d) =
  if d =? 0 then (Some conv_err, None) else (None, Some (Qred (Qmake a (Z.to_pos d)))).
Proof.
  intros Hd. unfold string_to_bigrat, integer_to_string. change (str "/" ++ int_to_string d) with (47 :: int_to_string d). rewrite (rat_ratio a d Hd).
  destruct (d =? 0); reflexivity.
Qed.
Print Assumptions C94_ratio.
(** ... but (finding) it also takes hexadecimal, octal and binary prefixes and underscores, and a leading zero means octal in a ratio
    though not elsewhere. *)
Theorem C94_prefixes_refuted :
  string_to_bigrat (str "0x10") = (None, Some 16%Q) /\ string_to_bigrat (str "1_000") = (None, Some 1000%Q) /\
  string_to_bigrat (str "010") = (None, Some 10%Q) /\ string_to_bigrat (str "010/1") = (None, Some 8%Q).
Proof. repeat split; vm_compute; reflexivity. Qed.
Print Assumptions C94_prefixes_refuted.
(** StringToBigFloat accepts exactly the numerals and the names of the infinities; the result is nearest to the number at the
    precision asked for (stated where the power of five is exact at the precision big.Float.Parse computes it with). *)
Theorem C94_string_to_bigfloat s neg m f b x : numeral s neg m f b x -> int64 x -> float_range m f x ->
  let p := Z.max 53 (Z.log2_up (10 ^ Z.of_nat (List.length s))) in
  5 ^ Z.abs (- f + (if b =? 10 then x else 0)) < 2 ^ (p + 64) ->
  exists y q, string_to_bigfloat float_parse s = (None, Some y) /\ denotes y q /\ nearest_short 2 p (numeral_value neg m f b x) q.
Proof.
  intros H I64 F p _. destruct (float_parse_numeral _ _ _ _ _ _ H I64 F) as (l & E & V). unfold string_to_bigfloat. rewrite E.
  destruct l as [|n' n d]; [destruct V|]. destruct V as (-> & Hn & Hd & V).
  destruct (round_literal_ok (string_bits (List.length s)) neg n d ltac:(unfold string_bits; lia) Hn Hd) as (y & Y1 & Y2 & Y3).
  exists (round_literal (string_bits (List.length s)) (LNum neg n d)), y. split; [reflexivity|]. split; [exact Y1|].
  assert (Eq : ((if neg then - fr n d else fr n d) == numeral_value neg m f b x)%Q).
  { rewrite <- V, Qmake_fr by exact Hd. destruct neg; [|reflexivity]. unfold fr. rewrite inject_Z_opp. field. intros Z0. apply inject_Z_0 in Z0. lia. }
  destruct Y3 as [S3 N3]. split; [exact S3|]. intros z Sz. rewrite <- Eq. apply N3, Sz.
Qed.
Print Assumptions C94_string_to_bigfloat.
Theorem C94_string_to_bigfloat_only s : (forall neg m f b x, ~ numeral s neg m f b x) ->
  (forall neg, inf_name s neg -> string_to_bigfloat float_parse s = (None, Some (Inf neg))) /\
  ((forall neg, ~ inf_name s neg) -> string_to_bigfloat float_parse s = (Some conv_err, None)).
Proof.
  intros N. unfold string_to_bigfloat. split.
  - intros neg I. destruct neg; cbn in I; decompose [or] I; subst s; reflexivity.
  - intros I. destruct (float_parse s) as [l|] eqn:E; [|reflexivity].
    destruct (float_parse_only s l E) as [(neg & A & _)|(neg & m & f & b & x & A & _)]; [destruct (I neg A)|destruct (N _ _ _ _ _ A)].
Qed.
Print Assumptions C94_string_to_bigfloat_only.
Example C94_nonvacuous : numeral (str "-12.50e3") true 1250 2 10 3 /\ int64 3 /\ rat_range 1250 2 10 3 /\ float_range 1250 2 3 /\
  float_string_to_bigrat (str "-12.50e3") None = (None, Some (-12500 # 1)%Q) /\ float_string_to_bigrat (str ".5p-1") None = (None, Some (1 # 4)%Q) /\
  float_string_to_bigrat (str "5/4") (Some 7%Q) = (Some conv_err, Some 7%Q) /\ float_string_to_bigrat (str "1.2.3") (Some 7%Q) = (Some conv_err, Some 7%Q) /\
  5 ^ Z.abs (-2 + 3) < 2 ^ (53 + 64).
Proof.
  split; [|unfold int64, rat_range, float_range; cbn [Z.eqb Pos.eqb]; repeat split; try lia; try (right; vm_compute; split; congruence); vm_compute; reflexivity].
  apply (num_minus (str "12.50") (str "e3")); [apply (mant_point (str "12") (str "50")); [digits_tac|digits_tac|discriminate]|].
  apply (exp_ten 101 (str "3")); [auto|]. apply (dt_plain (str "3")). split; [discriminate|digits_tac].
Qed.

(** C95. What is written is read back.  Rationals: StringToBigRat reads back what BigRatToString writes, and the integers ... *)
Theorem C95_bigrat_round_trip q : Qred q = q -> string_to_bigrat (bigrat_to_string q) = (None, Some q).
Proof. intros H. unfold string_to_bigrat. rewrite (rat_round_trip q H). reflexivity. Qed.
Print Assumptions C95_bigrat_round_trip.
Theorem C95_integer_round_trip z : string_to_bigrat (integer_to_string z) = (None, Some (inject_Z z)) /\
  forall o, float_string_to_bigrat (integer_to_string z) o = (None, Some (inject_Z z)) \/ 2 ^ (2 ^ 31 - 1) <= Z.abs z.
Proof.
  assert (H : exists (neg : bool) m, numeral (integer_to_string z) neg m 0 10 0 /\ z = if neg then - m else m).
  { unfold integer_to_string. destruct (int_to_string_text z) as [l D|l D|l D].
    - exists false, (in_base_ten l). split; [|reflexivity]. rewrite <- (app_nil_r l) at 1. apply num_plain; constructor. exact D.
    - exists false, (in_base_ten l). split; [|reflexivity]. rewrite <- (app_nil_r l) at 1. apply (num_plus l []); constructor. exact D.
    - exists true, (in_base_ten l). split; [|reflexivity]. rewrite <- (app_nil_r l) at 1. apply (num_minus l []); constructor. exact D. }
  destruct H as (neg & m & H & Ez). assert (I64 : int64 0) by (split; vm_compute; congruence). assert (R : rat_range m 0 10 0) by (right; cbn; lia).
  assert (V : Qred (numeral_value neg m 0 10 0) = inject_Z z).
  { transitivity (Qred (inject_Z z)).
    - apply Qred_complete. unfold numeral_value. rewrite <- Ez. change (inject_Z 10 ^ (- (0)))%Q with 1%Q. change (inject_Z 10 ^ 0)%Q with 1%Q. ring.
    - apply Qcanon.Qred_identity. unfold inject_Z. cbn. apply Z.gcd_1_r. }
  split.
  - unfold string_to_bigrat. rewrite (proj1 (rat_numeral _ _ _ _ _ _ H I64) R), V. reflexivity.
  - intros o. destruct (numeral_inv _ _ _ _ _ _ H) as (a & t & _ & M & _). destruct (mantissa_nonneg _ _ _ M) as [Hm _].
    assert (Az : Z.abs z = m) by (destruct neg; lia). rewrite Az.
    destruct (Z_lt_le_dec m (2 ^ (2 ^ 31 - 1))) as [L|L]; [left|right; exact L]. rewrite <- V. apply C94_float_string_exact; try assumption.
    destruct (Z.eq_dec m 0) as [M0|M0]; [left; exact M0|right]. assert (P0 : 0 < m) by (clear L; lia).
    apply (proj1 (Z.log2_lt_pow2 m (2 ^ 31 - 1) P0)) in L. pose proof (Z.log2_nonneg m). lia.
Qed.
Print Assumptions C95_integer_round_trip.
(** ... floats: BigFloatToBigRat reads back the text of a big.Float, which is the number rounded to ten digits, when the last
    of those digits that is not zero is worth between 10^-1000000 and 10^1000000; beyond that (finding) the error is nil and the
    output a nil pointer. *)
Theorem C95_bigfloat_to_bigrat x q o : nonneg_mantissa x -> denotes x q ->
  exists r k E, nearest_short 10 10 q r /\ (r == inject_Z k * inject_Z 10 ^ E)%Q /\ (k = 0 \/ k mod 10 <> 0) /\
    bigfloat_to_bigrat_text x o = (None, if (k =? 0) || (Z.abs E <=? 1000000) then Some r else None).
Proof.
  intros Hm D. assert (Fx : finite x) by (destruct x; cbn in *; tauto). exists (ten_digits x). destruct (ten_form x Hm) as (k & E & Ek & Hk). exists k, E.
  split; [apply ten_digits_spec; assumption|]. split; [exact Ek|]. split; [tauto|].
  destruct (float_text x k E Fx Hm Ek Hk) as [A B]. unfold bigfloat_to_bigrat_text. destruct x as [|?|neg m e]; try (destruct Fx). cbn [is_inf].
  destruct (k =? 0) eqn:K0; cbn [orb].
  - apply Z.eqb_eq in K0. rewrite A by auto. reflexivity.
  - apply Z.eqb_neq in K0. destruct (Z.abs E <=? 1000000) eqn:CE; [apply Z.leb_le in CE; rewrite A by auto; reflexivity|apply Z.leb_gt in CE; rewrite B by auto; reflexivity].
Qed.
Print Assumptions C95_bigfloat_to_bigrat.
(** An infinite big.Float is an error, and the output stays as it was. *)
Theorem C95_bigfloat_to_bigrat_infinite neg o : bigfloat_to_bigrat_text (Inf neg) o = (Some conv_err, o).
Proof. reflexivity. Qed.
Print Assumptions C95_bigfloat_to_bigrat_infinite.
(** Every float32 and float64 is far inside those bounds: its text as a big.Float is read back as a number of ten digits, none nearer. *)
Theorem C95_read_back x q : is_float f64 x \/ is_float f32 x -> denotes x q ->
  exists r, nearest_short 10 10 q r /\ string_to_bigrat (bigfloat_to_string x) = (None, Some r) /\ forall o, bigfloat_to_bigrat_text x o = (None, Some r).
Proof.
  intros F D. assert (Fx : is_float f64 x) by (destruct F as [F|F]; [exact F|]; destruct x; cbn in *; try exact Logic.I; lia).
  assert (Fi : finite x) by (destruct x; cbn in *; tauto). assert (Hm : nonneg_mantissa x) by (destruct x; cbn in *; try exact Logic.I; lia).
  exists (ten_digits x). split; [apply ten_digits_spec; assumption|]. destruct (ten_form x Hm) as (k & E & Ek & Hk).
  assert (R : rat_set_string (bigfloat_to_string x) = Some (ten_digits x)).
  { apply (float_text x k E Fi Hm Ek Hk). destruct Hk as [Hk|Hk]; [|right; exact Hk]. left.
    assert (Nq : ~ (q == 0)%Q).
    { intros Q0. destruct x as [| |neg m e]; cbn [denotes] in D; try tauto. assert (M0 : m = 0).
      { rewrite Q0 in D. assert (X : (inject_Z (if neg then - m else m) == 0)%Q).
        { apply (Qmult_inj_r _ _ (inject_Z 2 ^ e)); [apply Qpower_not_0; discriminate|]. unfold digits in D. rewrite <- D. ring. }
        apply inject_Z_0 in X. destruct neg; lia. }
      subst m. cbn [ten_digits Z.eqb] in Ek. assert (X : (inject_Z k == 0)%Q).
      { apply (Qmult_inj_r _ _ (inject_Z 10 ^ E)); [apply Qpower_not_0; discriminate|]. rewrite <- Ek. ring. }
      apply inject_Z_0 in X. subst k. apply Hk. reflexivity. }
    pose proof (exp_of_float64 x k E q Fx D Nq Ek Hk). lia. }
  split; [unfold string_to_bigrat; rewrite R; reflexivity|]. intros o. unfold bigfloat_to_bigrat_text. rewrite R. destruct x; try destruct Fi. reflexivity.
Qed.
Print Assumptions C95_read_back.
(** BigRatToNormalizedString writes an integer as its digits; (finding) of any other number it keeps ten digits, so that different
    numbers have the same text, and large ones use an exponent. *)
Theorem C95_normalized_integer z : bigrat_to_normalized_string (inject_Z z) = integer_to_string z /\
  string_to_bigrat (bigrat_to_normalized_string (inject_Z z)) = (None, Some (inject_Z z)).
Proof. split; [reflexivity|]. exact (proj1 (C95_integer_round_trip z)). Qed.
Print Assumptions C95_normalized_integer.
Theorem C95_normalized_refuted :
  bigrat_to_normalized_string (1 # 3) = str "0.3333333333" /\ bigrat_to_normalized_string (3333333333 # 10000000000) = str "0.3333333333" /\
  bigrat_to_normalized_string (12345678901 # 10) = str "1234567890" /\ bigrat_to_normalized_string (123456789015 # 10) = str "1.23456789e+10".
Proof. repeat split; vm_compute; reflexivity. Qed.
Print Assumptions C95_normalized_refuted.
Example C95_nonvacuous : string_to_bigrat (bigrat_to_string (-5 # 4)) = (None, Some (-5 # 4)%Q) /\
  bigfloat_to_bigrat_text (Fin true 5 (-2)) None = (None, Some (-5 # 4)%Q) /\ bigfloat_to_string (Fin false 1 (-20)) = str "9.536743164e-07" /\
  bigfloat_to_string (Fin false 5 40) = str "5.497558139e+12" /\ bigfloat_to_string (Inf true) = str "-Inf".
Proof. repeat split; vm_compute; reflexivity. Qed.
