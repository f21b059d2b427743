(** Property theorems C72-C80: conversions among integers, floats, *big.Int, *big.Float, *big.Rat and strings. *)
From Coq Require Import ZArith List QArith Qabs Lia.
From Verif Require RatErr.
From Verif Require Import Base GoInt Conv ConvSpec Float FloatSpec FloatProofs FloatProofs2 ConvFloat ConvFloatSpec
  ConvFloatProofs ConvFloatProofs2 ConvFloatProofs3 ConvFloatProofs4.
Close Scope Q_scope.
Open Scope Z_scope.

(** The fraction n/d as a rational. *)
Local Notation fr := FloatProofs.fr.

(** C72. IntToFloat: whatever the machine does with out-of-range conversions, a value the float type has is stored exactly ... *)
Theorem C72_int_to_float_exact oor k s v o :
  in_type k v -> representable (fmt_of s) (inject_Z v) ->
  exists x, int_to_float oor k s v o = (None, x) /\ is_float (fmt_of s) x /\ denotes x (inject_Z v).
Proof.
  intros H R. exists (int_cast_float s v). split; [apply int_to_float_exact; assumption|].
  split; [apply int_cast_float_ok|apply int_cast_float_exact, R].
Qed.
Print Assumptions C72_int_to_float_exact.
(** ... and on a machine where those conversions yield values of the float type, any other value is an error. *)
Theorem C72_int_to_float_inexact oor k s v o :
  oor_representable oor -> ~ representable (fmt_of s) (inject_Z v) -> int_to_float oor k s v o = (Some conv_err, o).
Proof. intros Ho R. apply int_to_float_inexact; [intros x; apply Ho|exact R]. Qed.
Print Assumptions C72_int_to_float_inexact.
(** amd64 is such a machine. *)
Theorem C72_amd64 : oor_representable amd64.
Proof.
  intros k x s. unfold amd64.
  assert (H : exists e, 0 <= e <= 64 /\ exists m, (m = 0 \/ m = 1 \/ m = -1) /\
    (if is_signed k then lo_of k else match k with KUint | KUint64 => 2 ^ 63 | _ => 0 end) = m * 2 ^ e).
  { destruct k; cbn [is_signed lo_of num_bits].
    1: exists 63. 2: exists 7. 3: exists 15. 4: exists 31. 5: exists 63. 6: exists 63. 7-9: exists 0. 10: exists 63.
    all: (split; [lia|]).
    1-5: exists (-1). 6: exists 1. 7-9: exists 0. 10: exists 1.
    all: (split; [lia|reflexivity]). }
  destruct H as (e & He & m & Hm & ->). apply rep_iff. exists m, e. destruct s; cbn [fmt_of fp femin femax f32 f64];
    (split; [change (2 ^ 24) with 16777216; change (2 ^ 53) with 9007199254740992; lia|]; split; [lia|]);
    unfold digits; rewrite inject_Z_mult, <- (P_Z 2) by lia; reflexivity.
Qed.
Print Assumptions C72_amd64.
(** Finding: where out-of-range conversions saturate (arm64), MaxInt64 becomes 2^63 and MaxUint64 2^64, with a nil error. *)
Theorem C72_saturating_refuted :
  exists x y, int_to_float saturating KInt64 S64 (2 ^ 63 - 1) (Fin false 0 0) = (None, x) /\ denotes x (inject_Z (2 ^ 63)) /\
              int_to_float saturating KUint64 S32 (2 ^ 64 - 1) (Fin false 0 0) = (None, y) /\ denotes y (inject_Z (2 ^ 64)).
Proof. eexists. eexists. split; [vm_compute; reflexivity|]. split; [vm_compute; reflexivity|]. split; vm_compute; reflexivity. Qed.
Print Assumptions C72_saturating_refuted.
Example C72_nonvacuous : int_to_float amd64 KInt64 S64 (2 ^ 53 + 1) NaN = (Some conv_err, NaN) /\
  int_to_float amd64 KInt64 S64 (2 ^ 63 - 1) NaN = (Some conv_err, NaN) /\
  int_to_float amd64 KInt64 S32 (2 ^ 62) NaN = (None, Fin false (2 ^ 23) 39).
Proof. repeat split; vm_compute; reflexivity. Qed.

(** C73. FloatToBigInt: exact, or an error with the output untouched; NaN and the infinities are errors. *)
Theorem C73_float_to_bigint x q o : denotes x q -> exact_to_bigint q o (float_to_bigint x o).
Proof. exact (float_to_bigint_exact x q o). Qed.
Print Assumptions C73_float_to_bigint.
Theorem C73_float_to_bigint_special x o : ~ finite x -> float_to_bigint x o = (Some conv_err, o).
Proof. destruct x; cbn; try tauto; reflexivity. Qed.
Print Assumptions C73_float_to_bigint_special.
(** FloatToBigFloat: the same number, or an error for NaN *)
Theorem C73_float_to_bigfloat x o : float_to_bigfloat x o = match x with NaN => (Some conv_err, o) | _ => (None, x) end.
Proof. destruct x; reflexivity. Qed.
Print Assumptions C73_float_to_bigfloat.
(** FloatToFloat to float32: the nearest float32 for zero and for numbers between the least and the greatest positive float32,
    an error with the output untouched for other finite numbers; NaN and the infinities are kept. *)
Theorem C73_float_to_float32 x q o : is_float f64 x -> denotes x q ->
  let fits := (q == 0)%Q \/ ((digits 2 1 (-149) <= Qabs q)%Q /\ (Qabs q <= max_finite f32)%Q) in
  (fits -> exists y, float_to_float S32 x o = (None, y) /\ nearest_in f32 q y /\ (representable f32 q -> denotes y q)) /\
  (~ fits -> float_to_float S32 x o = (Some conv_err, o)).
Proof. intros F D. apply (float_to_float_ok x q o); [apply (is_float_nonneg f64), F|exact D]. Qed.
Print Assumptions C73_float_to_float32.
Theorem C73_float_to_float_special t x o : ~ finite x -> float_to_float t x o = (None, x).
Proof. destruct x; cbn; try tauto; destruct t; reflexivity. Qed.
Print Assumptions C73_float_to_float_special.
(** Every float32 converts to a float64 exactly, by FloatToFloat as by the plain conversion. *)
Theorem C73_float32_to_float64 x q o : is_float f32 x -> denotes x q ->
  exists y, float_to_float S64 x o = (None, y) /\ float_cast S64 x = y /\ is_float f64 y /\ denotes y q.
Proof.
  intros F D. exists (float_cast S64 x). pose proof (float_cast_ok S64 x q (is_float_nonneg _ _ F) D) as (A & B & _).
  split; [destruct x; cbn in D; try tauto; reflexivity|]. split; [reflexivity|]. split; [exact A|]. apply B, f32_in_f64.
  apply (denotes_representable _ x); assumption.
Qed.
Print Assumptions C73_float32_to_float64.
Example C73_nonvacuous : float_to_bigint (Fin true 3 70) 0 = (None, - (3 * 2 ^ 70)) /\ float_to_bigint (Fin false 3 (-1)) 9 = (Some conv_err, 9) /\
  float_to_float S32 (Fin false (2 ^ 52 + 1) 0) NaN = (None, Fin false (2 ^ 23) 29) /\
  float_to_float S32 (Fin false (2 ^ 52) 500) NaN = (Some conv_err, NaN) /\ float_to_float S32 (Fin false 1 (-150)) NaN = (Some conv_err, NaN).
Proof. repeat split; vm_compute; reflexivity. Qed.

(** C74. BigFloatToBigRat and FloatToBigRat return the number rounded to ten significant decimal digits ... *)
Theorem C74_bigfloat_to_bigrat x q o : nonneg_mantissa x -> denotes x q ->
  exists r, bigfloat_to_bigrat x o = (None, r) /\ nearest_short 10 10 q r /\ (short 10 10 q -> (r == q)%Q).
Proof.
  intros N D. exists (ten_digits x). split; [apply (bigfloat_to_bigrat_ok x q), D|]. pose proof (ten_digits_spec x q N D) as T.
  split; [exact T|]. apply nearest_short_exact, T.
Qed.
Print Assumptions C74_bigfloat_to_bigrat.
Theorem C74_float_to_bigrat x q o : nonneg_mantissa x -> denotes x q ->
  exists r, float_to_bigrat x o = (None, r) /\ nearest_short 10 10 q r /\ (short 10 10 q -> (r == q)%Q).
Proof.
  intros N D. exists (ten_digits x). split; [apply (float_to_bigrat_ok x q), D|]. pose proof (ten_digits_spec x q N D) as T.
  split; [exact T|]. apply nearest_short_exact, T.
Qed.
Print Assumptions C74_float_to_bigrat.
(** ... so FloatToInt and FloatToUint convert that rounded number: exactly when the float has at most ten digits. *)
Theorem C74_float_to_int t x q o : nonneg_mantissa x -> denotes x q ->
  let result := if is_signed t then float_to_int t x o else float_to_uint t x o in
  (exists r, nearest_short 10 10 q r /\ exact_to_int t r o result) /\ (short 10 10 q -> exact_to_int t q o result).
Proof.
  intros N D. cbn zeta. pose proof (ten_digits_spec x q N D) as T. pose proof (float_int_ok t x q o D) as F. unfold float_int in F.
  split; [exists (ten_digits x); auto|]. intros Sh. eapply exact_to_int_eq; [|exact F]. apply (nearest_short_exact 10 10 q), Sh. exact T.
Qed.
Print Assumptions C74_float_to_int.
Theorem C74_float_to_int_special t x o : ~ finite x ->
  (if is_signed t then float_to_int t x o else float_to_uint t x o) = (Some conv_err, o).
Proof. exact (float_int_special t x o). Qed.
Print Assumptions C74_float_to_int_special.
(** Finding: a float64 that is an integer converts to another integer, one that is not converts to an integer, and one that fits
    int64 fails, all contrary to the documentation. *)
Theorem C74_exact_refuted :
  (exists x, is_float f64 x /\ denotes x (inject_Z 12345678901) /\ float_to_int KInt64 x 0 = (None, 12345678900)) /\
  (exists x q, is_float f64 x /\ denotes x q /\ ~ integral q /\ float_to_int KInt x 0 = (None, 1)) /\
  (exists x, is_float f64 x /\ denotes x (inject_Z (2 ^ 63 - 1024)) /\ float_to_int KInt64 x 0 = (Some conv_err, 0)).
Proof.
  split; [|split].
  - exists (Fin false 12345678901 0). split; [cbn; lia|]. split; vm_compute; reflexivity.
  - exists (Fin false (2 ^ 52 + 1) (-52)). exists (digits 2 (2 ^ 52 + 1) (-52)).
    split; [cbn; lia|]. split; [cbn; reflexivity|]. split; [|vm_compute; reflexivity].
    assert (E : (digits 2 (2 ^ 52 + 1) (-52) == 4503599627370497 # 4503599627370496)%Q) by (vm_compute; reflexivity).
    intros (z & H). rewrite E in H. unfold Qeq in H. cbn [Qnum Qden inject_Z] in H. lia.
  - exists (Fin false (2 ^ 53 - 1) 10). split; [cbn; lia|]. split; vm_compute; reflexivity.
Qed.
Print Assumptions C74_exact_refuted.
Example C74_nonvacuous : short 10 10 (5 # 2) /\ float_to_bigrat (Fin true 5 (-1)) 0%Q = (None, (-5 # 2)%Q) /\
  float_to_uint KUint8 (Fin false 255 0) 0 = (None, 255).
Proof. split; [exists 25, (-1); split; [lia|reflexivity]|]. split; vm_compute; reflexivity. Qed.

(** C75. From *big.Int, *big.Float and *big.Rat to int64 and uint64: exact, or an error with the output untouched. *)
Theorem C75_bigint_to_64 z o : exact_conversion KInt64 z o (bigint_to_int64 z o) /\ exact_conversion KUint64 z o (bigint_to_uint64 z o).
Proof. split; [exact (bigint64_exact true z o)|exact (bigint64_exact false z o)]. Qed.
Print Assumptions C75_bigint_to_64.
Theorem C75_bigfloat_to_64 x q o : denotes x q ->
  exact_to_int KInt64 q o (bigfloat_to_int64 x o) /\ exact_to_int KUint64 q o (bigfloat_to_uint64 x o).
Proof. intros D. split; [exact (bigfloat64_exact true x q o D)|exact (bigfloat64_exact false x q o D)]. Qed.
Print Assumptions C75_bigfloat_to_64.
Theorem C75_bigfloat_infinite neg o : bigfloat_to_int64 (Inf neg) o = (Some conv_err, o) /\ bigfloat_to_uint64 (Inf neg) o = (Some conv_err, o).
Proof. split; reflexivity. Qed.
Print Assumptions C75_bigfloat_infinite.
Theorem C75_bigrat_to_64 q o : Qred q = q ->
  exact_to_int KInt64 q o (bigrat_to_int64 q o) /\ exact_to_int KUint64 q o (bigrat_to_uint64 q o).
Proof. intros D. split; [exact (bigrat64_exact true q o D)|exact (bigrat64_exact false q o D)]. Qed.
Print Assumptions C75_bigrat_to_64.
(** to big.Int *)
Theorem C75_to_bigint x q r o : denotes x q -> Qred r = r ->
  exact_to_bigint q o (bigfloat_to_bigint x o) /\ exact_to_bigint r o (bigrat_to_bigint r o) /\
  (forall neg, bigfloat_to_bigint (Inf neg) o = (Some conv_err, o)).
Proof. intros D R. split; [exact (bigfloat_to_bigint_exact x q o D)|]. split; [exact (bigrat_to_bigint_exact r o R)|reflexivity]. Qed.
Print Assumptions C75_to_bigint.
Example C75_nonvacuous : bigfloat_to_int64 (Fin true 1 63) 5 = (None, - 2 ^ 63) /\ bigfloat_to_int64 (Fin false 1 63) 5 = (Some conv_err, 5) /\
  bigrat_to_uint64 (7 # 2) 5 = (Some conv_err, 5) /\ bigrat_to_uint64 (7 # 1) 5 = (None, 7) /\ bigrat_to_bigint (-7 # 1) 5 = (None, -7).
Proof. repeat split; vm_compute; reflexivity. Qed.

(** C76. BigIntToFloat32/64, BigFloatToFloat32/64, BigRatToFloat32/64 succeed exactly when the float type has the number, and then
    store it; on failure the output is overwritten with the nearest float. *)
Theorem C76_bigint_to_float s z : exact_to_float (fmt_of s) (inject_Z z) (bigint_to_float s z).
Proof. exact (bigint_to_float_exact s z). Qed.
Print Assumptions C76_bigint_to_float.
Theorem C76_bigfloat_to_float s x q : nonneg_mantissa x -> denotes x q -> exact_to_float (fmt_of s) q (bigfloat_to_float s x).
Proof. exact (bigfloat_to_float_exact s x q). Qed.
Print Assumptions C76_bigfloat_to_float.
Theorem C76_bigrat_to_float s q : exact_to_float (fmt_of s) q (bigrat_to_float s q).
Proof. exact (bigrat_to_float_exact s q). Qed.
Print Assumptions C76_bigrat_to_float.
(** Finding: conv.To from the big types to float32 goes through float64 and rounds silently, where the functions above fail. *)
Theorem C76_to_float32_refuted oor pl ff fb pr : exists x,
  to oor pl ff fb pr TBigInt (TF S32) (VBigInt (2 ^ 24 + 1)) (VF NaN) = Done (None, VF x) /\ denotes x (inject_Z (2 ^ 24)) /\
  fst (bigint_to_float S32 (2 ^ 24 + 1)) <> None.
Proof. eexists. split; [vm_compute; reflexivity|]. split; [vm_compute; reflexivity|vm_compute; discriminate]. Qed.
Print Assumptions C76_to_float32_refuted.
(** Finding: a failed conversion overwrites the output. *)
Theorem C76_output_overwritten : exists x, bigrat_to_float S32 (1 # 3) = (Some conv_err, x) /\ nearest_in f32 (1 # 3) x.
Proof.
  exists (snd (bigrat_to_float S32 (1 # 3))). split; [vm_compute; reflexivity|].
  destruct (bigrat_to_float_exact S32 (1 # 3)) as [H1 H2]. destruct (rep_dec S32 (1 # 3)) as [R|R].
  - destruct (H1 R) as [G _]. exfalso. revert G. vm_compute. discriminate.
  - apply (H2 R). vm_compute. discriminate.
Qed.
Print Assumptions C76_output_overwritten.
Example C76_nonvacuous : bigint_to_float S64 (2 ^ 100) = (None, Fin false (2 ^ 52) 48) /\ bigrat_to_float S64 (-3 # 8) = (None, Fin true (3 * 2 ^ 51) (-54)) /\
  fst (bigint_to_float S64 (2 ^ 53 + 1)) = Some conv_err /\ fst (bigfloat_to_float S32 (Fin false 1 128)) = Some conv_err.
Proof. repeat split; vm_compute; reflexivity. Qed.

(** C77. IntToBigFloat and BigIntToBigFloat are exact for every integer, however large. *)
Theorem C77_int_to_bigfloat v : denotes (int_to_bigfloat v) (inject_Z v) /\ denotes (bigint_to_bigfloat v) (inject_Z v).
Proof. split; [exact (int_to_bigfloat_exact v)|exact (bigint_to_bigfloat_exact v)]. Qed.
Print Assumptions C77_int_to_bigfloat.
(** UintToBigFloat rounds to 53 bits: exact for integers of 53 significant bits. *)
Theorem C77_uint_to_bigfloat v : 0 <= v -> exists y, denotes (uint_to_bigfloat v) y /\
  (forall z, short 2 53 z -> (Qabs (inject_Z v - y) <= Qabs (inject_Z v - z))%Q) /\ (short 2 53 (inject_Z v) -> (y == inject_Z v)%Q).
Proof. exact (uint_to_bigfloat_nearest v). Qed.
Print Assumptions C77_uint_to_bigfloat.
(** Finding: other values change. *)
Theorem C77_uint_exact_refuted : denotes (uint_to_bigfloat (2 ^ 53 + 1)) (inject_Z (2 ^ 53)).
Proof. vm_compute. reflexivity. Qed.
Print Assumptions C77_uint_exact_refuted.
(** BigRatToBigFloat: exact for integers and for multiples of 2^-53 of at most 53 bits. *)
Theorem C77_bigrat_to_bigfloat q : Qred q = q ->
  (integral q \/ exists m e, Z.abs m < 2 ^ 53 /\ -53 <= e /\ (q == digits 2 m e)%Q) -> denotes (bigrat_to_bigfloat q) q.
Proof. intros R [I|(m & e & H1 & H2 & H3)]; [exact (bigrat_int_ok q R I)|exact (bigrat_dyadic_ok q m e H1 H2 H3)]. Qed.
Print Assumptions C77_bigrat_to_bigfloat.
(** ... and whatever the number, the result is off by at most its 2^52nd part and 10^-53 ... *)
Theorem C77_bigrat_error q : exists y, denotes (bigrat_to_bigfloat q) y /\ (Qabs (q - y) <= Qabs q * (1 # 2 ^ 52) + (1 # 10 ^ 53))%Q.
Proof.
  assert (K : exists y, denotes (bigrat_to_bigfloat q) y).
  { unfold bigrat_to_bigfloat, round_literal. set (p := Z.max 53 _). unfold to_prec. destruct (_ =? 0); [|destruct (round _ _ _ _ _) as [m e]]; eexists; cbn [denotes]; reflexivity. }
  destruct K as (y & D). exists y. split; [exact D|]. exact (RatErr.rat_to_float_error q y D).
Qed.
Print Assumptions C77_bigrat_error.
(** Finding: a small number that a big.Float holds exactly becomes zero. *)
Theorem C77_bigrat_exact_refuted : denotes (bigrat_to_bigfloat (1 # Z.to_pos (2 ^ 200))) 0%Q.
Proof. vm_compute. reflexivity. Qed.
Print Assumptions C77_bigrat_exact_refuted.
Example C77_nonvacuous : denotes (bigrat_to_bigfloat (-5 # 4)) (-5 # 4) /\ denotes (uint_to_bigfloat (2 ^ 60)) (inject_Z (2 ^ 60)) /\
  denotes (bigint_to_bigfloat (- (2 ^ 200 + 1))) (inject_Z (- (2 ^ 200 + 1))).
Proof. split; [vm_compute; reflexivity|]. split; vm_compute; reflexivity. Qed.

(** C78. Strings to integers: StringToInt64 accepts exactly the decimal texts (optional sign, digits) of int64 values; otherwise the
    output is overwritten: by the nearest bound when out of range, by 0 when malformed. *)
Theorem C78_string_to_int64 s :
  (forall v, decimal_text s v -> in_type KInt64 v -> string_to_int64 s = (None, v)) /\
  (forall v, decimal_text s v -> ~ in_type KInt64 v -> string_to_int64 s = (Some conv_err, if v <? 0 then - 2 ^ 63 else 2 ^ 63 - 1)) /\
  (~ (exists v, decimal_text s v) -> string_to_int64 s = (Some conv_err, 0)).
Proof.
  split; [|split]; [| |exact (string_to_int64_bad s)]; intros v D T; rewrite (string_to_int64_ok s v D).
  - apply (in64 true) in T. rewrite T. reflexivity.
  - assert (E : (minS 64 <=? v) && (v <=? maxS 64) = false).
    { destruct ((minS 64 <=? v) && (v <=? maxS 64)) eqn:C; [|reflexivity]. exfalso. apply T, (in64 true), C. }
    rewrite E. reflexivity.
Qed.
Print Assumptions C78_string_to_int64.
(** StringToUint64 accepts exactly the digit strings, with no sign. *)
Theorem C78_string_to_uint64 s :
  (digit_string s -> in_base_ten s < 2 ^ 64 -> string_to_uint64 s = (None, in_base_ten s)) /\
  (digit_string s -> 2 ^ 64 <= in_base_ten s -> string_to_uint64 s = (Some conv_err, 2 ^ 64 - 1)) /\
  (~ digit_string s -> string_to_uint64 s = (Some conv_err, 0)).
Proof.
  split; [|split]; [| |exact (string_to_uint64_bad s)]; intros D T; rewrite (string_to_uint64_ok s D).
  - destruct (in_base_ten s <=? maxU 64) eqn:C; [reflexivity|]. apply Z.leb_gt in C. unfold maxU in C. lia.
  - destruct (in_base_ten s <=? maxU 64) eqn:C; [|reflexivity]. apply Z.leb_le in C. unfold maxU in C. lia.
Qed.
Print Assumptions C78_string_to_uint64.
(** StringToBigInt accepts exactly the decimal texts. *)
Theorem C78_string_to_bigint s :
  (forall v, decimal_text s v -> string_to_bigint s = (None, Some v)) /\
  (~ (exists v, decimal_text s v) -> fst (string_to_bigint s) <> None).
Proof. split; [exact (string_to_bigint_ok s)|]. intros H. rewrite (string_to_bigint_bad s H). discriminate. Qed.
Print Assumptions C78_string_to_bigint.
(** Integers survive the way to a string and back. *)
Theorem C78_round_trip v :
  (in_type KInt64 v -> string_to_int64 (integer_to_string v) = (None, v)) /\
  (in_type KUint64 v -> string_to_uint64 (integer_to_string v) = (None, v)) /\
  string_to_bigint (integer_to_string v) = (None, Some v).
Proof.
  pose proof (string_decimal v) as D. split; [|split].
  - intros H. apply (C78_string_to_int64 (integer_to_string v)); assumption.
  - intros H. unfold in_type in H. cbn [is_signed num_bits] in H. destruct (string_digits v ltac:(lia)) as [E1 E2].
    pose proof (C78_string_to_uint64 (integer_to_string v)) as [X _]. unfold integer_to_string in *. rewrite E2 in X. apply X; [exact E1|lia].
  - apply string_to_bigint_ok, D.
Qed.
Print Assumptions C78_round_trip.
(** Finding: the text "+5", which the signed conversions accept, is rejected by the unsigned ones. *)
Theorem C78_plus_sign_refuted : string_to_int64 [43; 53] = (None, 5) /\ fst (string_to_uint64 [43; 53]) <> None.
Proof. split; [reflexivity|discriminate]. Qed.
Print Assumptions C78_plus_sign_refuted.
Example C78_nonvacuous : decimal_text [45; 48; 49; 50] (-12) /\ string_to_int64 [45; 48; 49; 50] = (None, -12) /\
  string_to_uint64 [49; 50; 97] = (Some conv_err, 0) /\ fst (string_to_bigint []) <> None.
Proof. split; [|split; [reflexivity|split; [reflexivity|discriminate]]]. apply (dt_minus [48; 49; 50]). split; [discriminate|]. repeat constructor; lia. Qed.

(** C79. StringToFloat32/64 of a text that stands for the number q rounds q to p bits, where p is 53 or the number of bits that
    length-of-text decimal digits need, and succeeds exactly when the float type has the rounded number. *)
Theorem C79_string_to_float pl z s o neg n d :
  s <> nan_text -> pl s = Some (LNum neg n d) -> 0 <= n -> 0 < d ->
  exists y, nearest_short 2 (Z.max 53 (Z.log2_up (10 ^ Z.of_nat (length s)))) (if neg then - fr n d else fr n d)%Q y /\
            exact_to_float (fmt_of z) y (string_to_float pl z s o).
Proof.
  intros Hs Hp Hn Hd. destruct (round_literal_ok (string_bits (length s)) neg n d ltac:(unfold string_bits; lia) Hn Hd) as (y & Y1 & Y2 & Y3).
  exists y. split; [exact Y3|]. unfold string_to_float, string_to_bigfloat. destruct (list_eq_dec Z.eq_dec s nan_text); [congruence|].
  rewrite Hp. pose proof (bigfloat_to_float_exact z _ y Y2 Y1) as X. destruct (bigfloat_to_float z _) as [[e|] v]; [|exact X].
  destruct X as [X1 X2]. split.
  - intros R. destruct (X1 R) as [G _]. cbn in G. discriminate.
  - intros R. destruct (X2 R) as [_ G]. cbn. split; [discriminate|exact G].
Qed.
Print Assumptions C79_string_to_float.
(** In particular a text for a number the type has is read exactly. *)
Theorem C79_exact pl z s o neg n d :
  s <> nan_text -> pl s = Some (LNum neg n d) -> 0 <= n -> 0 < d ->
  representable (fmt_of z) (if neg then - fr n d else fr n d) ->
  exists x, string_to_float pl z s o = (None, x) /\ denotes x (if neg then - fr n d else fr n d).
Proof.
  intros Hs Hp Hn Hd R. destruct (C79_string_to_float pl z s o neg n d Hs Hp Hn Hd) as (y & Y1 & Y2).
  set (q := (if neg then - fr n d else fr n d)%Q) in *.
  assert (Sh : short 2 53 q).
  { apply rep_iff in R. destruct R as (m & e & H1 & _ & H3). exists m, e. split; [|exact H3]. destruct z; cbn [fmt_of fp f32 f64] in H1; [|exact H1].
    eapply Z.lt_trans; [exact H1|reflexivity]. }
  assert (E : (y == q)%Q). { apply (nearest_short_exact 2 _ q y Y1). eapply short_mono; [|exact Sh]. lia. }
  destruct Y2 as [Y2 _]. destruct (Y2 (rep_eq z q y (Qeq_sym _ _ E) R)) as (A & B & C). destruct (string_to_float pl z s o) as [e x]. cbn in A, B, C. subst e.
  exists x. split; [reflexivity|]. apply (denotes_eq _ y); [exact E|exact C].
Qed.
Print Assumptions C79_exact.
Theorem C79_special pl z s o :
  string_to_float pl z nan_text o = (None, NaN) /\
  (forall neg, s <> nan_text -> pl s = Some (LInf neg) -> string_to_float pl z s o = (None, Inf neg)) /\
  (s <> nan_text -> pl s = None -> string_to_float pl z s o = (Some conv_err, o)).
Proof.
  split; [reflexivity|]. split.
  - intros neg Hs Hp. unfold string_to_float, string_to_bigfloat. destruct (list_eq_dec Z.eq_dec s nan_text); [congruence|]. rewrite Hp. reflexivity.
  - intros Hs Hp. unfold string_to_float, string_to_bigfloat. destruct (list_eq_dec Z.eq_dec s nan_text); [congruence|]. rewrite Hp. reflexivity.
Qed.
Print Assumptions C79_special.
(** Finding: most decimal texts are not float32 numbers, and those of sixteen characters or more mostly not float64 numbers: "0.1" and
    "3.141592653589793" are rejected (and the output overwritten), though "0.1" is a valid float64. *)
Theorem C79_ordinary_texts_refuted pl o :
  pl [48; 46; 49] = Some (LNum false 1 10) ->
  pl [51; 46; 49; 52; 49; 53; 57; 50; 54; 53; 51; 53; 56; 57; 55; 57; 51] = Some (LNum false 3141592653589793 1000000000000000) ->
  fst (string_to_float pl S32 [48; 46; 49] o) <> None /\ fst (string_to_float pl S64 [48; 46; 49] o) = None /\
  fst (string_to_float pl S64 [51; 46; 49; 52; 49; 53; 57; 50; 54; 53; 51; 53; 56; 57; 55; 57; 51] o) <> None.
Proof.
  intros H1 H2. unfold string_to_float, string_to_bigfloat, nan_text.
  repeat (match goal with |- context [list_eq_dec Z.eq_dec ?a ?b] => destruct (list_eq_dec Z.eq_dec a b) as [E|_]; [discriminate E|] end).
  rewrite H1, H2. split; [vm_compute; discriminate|]. split; [vm_compute; reflexivity|vm_compute; discriminate].
Qed.
Print Assumptions C79_ordinary_texts_refuted.
Example C79_nonvacuous : string_to_float (fun _ => Some (LNum true 5 4)) S32 [45; 49; 46; 50; 53] NaN = (None, Fin true (5 * 2 ^ 21) (-23)).
Proof. vm_compute. reflexivity. Qed.

(** C80. conv.To: between any two of the sixteen types it returns, with or without an error, and never panics ... *)
Theorem C80_to_total oor pl ff fb pr s t v o : well_typed s v -> out_typed t o -> exists e r, to oor pl ff fb pr s t v o = Done (e, r).
Proof. exact (to_total oor pl ff fb pr s t v o). Qed.
Print Assumptions C80_to_total.
(** ... for the numeric types, except the listed pairs, a success stores a value of the target type that is the same number
    (or infinity, or NaN) ... *)
Theorem C80_to_preserves oor pl ff fb pr s t v o w :
  oor_representable oor -> well_typed s v -> out_typed t o -> numeric s -> numeric t -> ~ lossy s t ->
  to oor pl ff fb pr s t v o = Done (None, w) -> well_typed t w /\ same_number v w.
Proof. exact (to_preserves oor pl ff fb pr s t v o w). Qed.
Print Assumptions C80_to_preserves.
(** ... and it succeeds whenever the target type has the number. *)
Theorem C80_to_complete oor pl ff fb pr s t v o w q :
  well_typed s v -> out_typed t o -> numeric s -> numeric t -> ~ lossy s t ->
  number v q -> well_typed t w -> number w q -> exists r, to oor pl ff fb pr s t v o = Done (None, r).
Proof. exact (to_complete oor pl ff fb pr s t v o w q). Qed.
Print Assumptions C80_to_complete.
(** From float64 to float32, one of the listed pairs, To rounds to the nearest float32 and refuses what FloatToFloat refuses. *)
Theorem C80_to_float32 oor pl ff fb pr x o q : is_float f64 x -> denotes x q ->
  let fits := (q == 0)%Q \/ ((digits 2 1 (-149) <= Qabs q)%Q /\ (Qabs q <= max_finite f32)%Q) in
  (fits -> exists y, to oor pl ff fb pr (TF S64) (TF S32) (VF x) (VF o) = Done (None, VF y) /\ nearest_in f32 q y) /\
  (~ fits -> to oor pl ff fb pr (TF S64) (TF S32) (VF x) (VF o) = Done (Some conv_err, VF o)).
Proof.
  intros F D fits. destruct (C73_float_to_float32 x q o F D) as [A B]. split; intros H.
  - destruct (A H) as (y & E & N & _). exists y. split; [|exact N]. cbn [to]. rewrite E. reflexivity.
  - cbn [to]. rewrite (B H). reflexivity.
Qed.
Print Assumptions C80_to_float32.
(** From the big types to float32, To does what To does to float64 and from there to float32; an error on the way leaves the output alone. *)
Theorem C80_big_to_float32 oor pl ff fb pr s v o o64 : s = TBigInt \/ s = TBigFloat \/ s = TBigRat -> well_typed s v ->
  (forall e r, to oor pl ff fb pr s (TF S64) v (VF o64) = Done (Some e, r) -> to oor pl ff fb pr s (TF S32) v (VF o) = Done (Some e, VF o)) /\
  (forall r, to oor pl ff fb pr s (TF S64) v (VF o64) = Done (None, r) -> to oor pl ff fb pr s (TF S32) v (VF o) = to oor pl ff fb pr (TF S64) (TF S32) r (VF o)).
Proof.
  intros H W. destruct H as [H|[H|H]]; subst s; destruct v; cbn in W; try tauto; cbn [to]; unfold lift_f, via_float64;
    match goal with |- context [fst ?x] => destruct x as [[e|] y] end; cbn [fst snd]; split; intros; try congruence;
    match goal with H : Done _ = Done _ |- _ => injection H; intros; subst end; reflexivity.
Qed.
Print Assumptions C80_big_to_float32.
(** A value of the target type is copied. *)
Theorem C80_to_same oor pl ff fb pr t v o : well_typed t v -> out_typed t o -> to oor pl ff fb pr t t v o = Done (None, v).
Proof.
  intros Hv Ho. destruct t as [k|sz| | | |]; destruct v as [z|x|z|x|q|l|]; cbn in Hv; try tauto; try reflexivity.
  - destruct o as [o| | | | | |]; cbn in Ho; try tauto. cbn [to]. unfold to_int. destruct k; reflexivity.
  - destruct sz; reflexivity.
Qed.
Print Assumptions C80_to_same.
(** Each listed pair does change some number. *)
Theorem C80_lossy_tight oor pl ff fb pr s t : lossy s t ->
  exists v o w q, well_typed s v /\ out_typed t o /\ to oor pl ff fb pr s t v o = Done (None, w) /\ number v q /\ ~ number w q.
Proof.
  assert (K1 : forall k, in_type k 1 /\ in_type k 0) by (intros k; destruct k; unfold in_type; cbn; lia).
  assert (E1 : (digits 2 (2 ^ 52 + 1) (-52) == 4503599627370497 # 4503599627370496)%Q) by (vm_compute; reflexivity).
  intros L. destruct s as [k|[|]| | | |], t as [k'|[|]| | | |]; cbn in L; try tauto; try (destruct k; cbn in L; tauto).
  - (* uint64 to big.Float *)
    exists (VI (2 ^ 53 + 1)), VUnspec. exists (VBigFloat (uint_to_bigfloat (2 ^ 53 + 1))), (inject_Z (2 ^ 53 + 1)).
    split; [destruct k; try tauto; unfold well_typed, in_type; cbn; lia|]. split; [exact Logic.I|].
    split; [destruct k; try tauto; reflexivity|]. split; [reflexivity|]. vm_compute. discriminate.
  - (* float32 to a 64-bit integer type: 2^40 *)
    exists (VF (Fin false 1 40)), (VI 0), (VI 1099511628000), (inject_Z (2 ^ 40)).
    split; [cbn; lia|]. split; [apply K1|]. split; [destruct k'; try tauto; vm_compute; reflexivity|].
    split; [vm_compute; reflexivity|]. vm_compute. discriminate.
  - (* float32 to big.Rat *)
    exists (VF (Fin false 1 40)), VUnspec, (VBigRat (inject_Z 1099511628000)), (inject_Z (2 ^ 40)).
    split; [cbn; lia|]. split; [exact Logic.I|]. split; [vm_compute; reflexivity|]. split; [vm_compute; reflexivity|]. vm_compute. discriminate.
  - (* float64 to an integer type: 1 + 2^-52 *)
    exists (VF (Fin false (2 ^ 52 + 1) (-52))), (VI 0), (VI 1), (digits 2 (2 ^ 52 + 1) (-52)).
    split; [cbn; lia|]. split; [apply K1|]. split; [destruct k'; vm_compute; reflexivity|].
    split; [reflexivity|]. vm_compute. discriminate.
  - (* float64 to float32 *)
    exists (VF (Fin false (2 ^ 52 + 1) (-52))), (VF NaN). eexists. exists (digits 2 (2 ^ 52 + 1) (-52)).
    split; [cbn; lia|]. split; [exact Logic.I|]. split; [vm_compute; reflexivity|]. split; [reflexivity|]. vm_compute. discriminate.
  - (* float64 to big.Rat *)
    exists (VF (Fin false (2 ^ 52 + 1) (-52))), VUnspec. eexists. exists (digits 2 (2 ^ 52 + 1) (-52)).
    split; [cbn; lia|]. split; [exact Logic.I|]. split; [vm_compute; reflexivity|]. split; [reflexivity|]. vm_compute. discriminate.
  - (* big.Int to float32 *)
    exists (VBigInt (2 ^ 24 + 1)), (VF NaN). eexists. exists (inject_Z (2 ^ 24 + 1)).
    split; [exact Logic.I|]. split; [exact Logic.I|]. split; [vm_compute; reflexivity|]. split; [reflexivity|]. vm_compute. discriminate.
  - (* big.Float to float32 *)
    exists (VBigFloat (Fin false (2 ^ 24 + 1) 0)), (VF NaN). eexists. exists (inject_Z (2 ^ 24 + 1)).
    split; [split; [discriminate|cbn; lia]|]. split; [exact Logic.I|]. split; [vm_compute; reflexivity|]. split; [vm_compute; reflexivity|]. vm_compute. discriminate.
  - (* big.Float to big.Rat *)
    exists (VBigFloat (Fin false (2 ^ 52 + 1) (-52))), VUnspec. eexists. exists (digits 2 (2 ^ 52 + 1) (-52)).
    split; [split; [discriminate|cbn; lia]|]. split; [exact Logic.I|]. split; [vm_compute; reflexivity|]. split; [reflexivity|]. vm_compute. discriminate.
  - (* big.Rat to float32 *)
    exists (VBigRat (inject_Z (2 ^ 24 + 1))), (VF NaN). eexists. exists (inject_Z (2 ^ 24 + 1)).
    split; [reflexivity|]. split; [exact Logic.I|]. split; [vm_compute; reflexivity|]. split; [reflexivity|]. vm_compute. discriminate.
  - (* big.Rat to big.Float *)
    exists (VBigRat (1 # 3)), VUnspec. eexists. exists (1 # 3)%Q.
    split; [reflexivity|]. split; [exact Logic.I|]. split; [vm_compute; reflexivity|]. split; [reflexivity|]. vm_compute. discriminate.
Qed.
Print Assumptions C80_lossy_tight.
Example C80_nonvacuous oor pl ff fb pr : ~ lossy (TF S32) (TI KInt8) /\
  to oor pl ff fb pr (TF S32) (TI KInt8) (VF (Fin true 5 2)) (VI 0) = Done (None, VI (-20)) /\
  to oor pl ff fb pr (TF S32) (TI KInt8) (VF (Fin true 5 20)) (VI 7) = Done (Some conv_err, VI 7) /\
  to oor pl ff fb pr (TI KInt16) TString (VI (-20)) VUnspec = Done (None, VS [45; 50; 48]).
Proof. split; [cbn; tauto|]. repeat split; vm_compute; reflexivity. Qed.
