(** Proofs about ConvFloat.v, continued: ten digits, rationals to big floats, strings. *)
From Coq Require Import ZArith List QArith Qpower Qabs Lia Lqa ZifyBool ZifyNat.
From Verif Require Import Base GoInt Conv ConvSpec ConvProofs Float FloatSpec FloatProofs FloatProofs2 ConvFloat ConvFloatSpec
  DecDigits ConvFloatProofs ConvFloatProofs2.
From Verif Require Decimal DecimalSpec.
From Coq Require Qcanon.
Close Scope Q_scope.
Open Scope Z_scope.

(** ** Ten significant digits *)
Lemma ten_le : 2 <= 10. Proof. lia. Qed.
Lemma round10_short n d : 0 < n -> 0 < d -> let '(m, e) := round 10 10 None n d in short 10 10 (digits 10 m e) /\ 0 <= m.
Proof.
  intros Hn Hd. pose proof (round_range 10 ten_le 10 None n d ltac:(lia) Hn Hd) as R. destruct (round 10 10 None n d) as [m e]. cbn [fst] in R.
  split; [|lia]. destruct (Z.eq_dec m (10 ^ 10)) as [E|E].
  - exists (10 ^ 9), (1 + e). split; [reflexivity|]. rewrite E. unfold digits. rewrite P_plus by exact ten_le.
    change (Qpower (inject_Z 10) 1) with (inject_Z 10). change (10 ^ 10) with (10 ^ 9 * 10). rewrite inject_Z_mult. ring.
  - exists m, e. split; [lia|reflexivity].
Qed.
Lemma short_opp b p q : short b p q -> short b p (- q).
Proof. intros (m & e & H1 & H2). exists (- m), e. split; [lia|]. rewrite digits_opp, H2. reflexivity. Qed.
Lemma short_eq b p q r : (q == r)%Q -> short b p q -> short b p r.
Proof. intros E (m & e & H1 & H2). exists m, e. split; [exact H1|]. rewrite <- E. exact H2. Qed.

Lemma ten_digits_red x : Qred (ten_digits x) = ten_digits x.
Proof.
  destruct x as [|neg|neg m e]; try reflexivity. unfold ten_digits. destruct (m =? 0); [reflexivity|]. destruct (frac m e) as [n d].
  destruct (round 10 10 None n d) as [m1 e1]. destruct (scale 10 (- e1) _ 1) as [n' d']. apply Qcanon.Qred_involutive.
Qed.
Lemma ten_digits_spec x q : nonneg_mantissa x -> denotes x q -> nearest_short 10 10 q (ten_digits x).
Proof.
  destruct x as [|neg|neg m e]; cbn [denotes]; try tauto. intros Hm H. cbn in Hm. unfold ten_digits. destruct (m =? 0) eqn:C.
  - apply Z.eqb_eq in C. subst m. assert (Q0 : (q == 0)%Q). { rewrite H. destruct neg; unfold digits; cbn [Z.opp]; ring. }
    split; [exists 0, 0; split; [reflexivity|]; unfold digits; ring|]. intros z _. rewrite Q0.
    change (Qabs (0 - 0)) with 0%Q. apply Qabs_nonneg.
  - pose proof (frac_signed neg m e ltac:(lia)) as F. pose proof (frac_spec m e) as (_ & _ & F3 & _).
    destruct (frac m e) as [n d]. cbn [fst] in F3. destruct F as (_ & Hd & F2). assert (Hn : 0 < n) by (apply F3; lia).
    pose proof (round10_short n d Hn Hd) as Sh0.
    pose proof (round_nearest 10 ten_le 10 None n d ltac:(lia) Hn Hd) as N.
    destruct (round 10 10 None n d) as [m1 e1]. cbn [fst snd] in *. destruct Sh0 as [Sh Hm10].
    pose proof (scale_spec 10 ten_le (- e1) (if neg then - m1 else m1) 1 ltac:(lia)) as S1.
    destruct (scale 10 (- e1) (if neg then - m1 else m1) 1) as [n' d']. destruct S1 as (D' & _ & E').
    assert (V : (Qred (n' # Z.to_pos d') == if neg then - digits 10 m1 e1 else digits 10 m1 e1)%Q).
    { rewrite Qred_correct, Qmake_fr by exact D'. rewrite E', fr_1, P_opp. unfold digits.
      destruct neg; [rewrite inject_Z_opp|]; field; apply P_nz, ten_le. }
    split.
    + eapply short_eq; [symmetry; exact V|]. destruct neg; [apply short_opp, Sh|exact Sh].
    + intros z (m' & e' & H1 & H2). rewrite V, H, F2, H2. destruct neg.
      * assert (E2 : (digits 10 m' e' == - digits 10 (- m') e')%Q) by (rewrite digits_opp; ring).
        rewrite E2, !Qabs_opp_minus. apply N; [lia|exact Logic.I].
      * apply N; [lia|exact Logic.I].
Qed.
Lemma Qabs_zero_eq a b : (Qabs (a - b) <= 0)%Q -> (a == b)%Q.
Proof. intros H. apply Qabs_Qle_condition in H. destruct H as [A B]. change (Qopp 0) with 0%Q in A. lra. Qed.
Lemma nearest_short_exact b p q y : nearest_short b p q y -> short b p q -> (y == q)%Q.
Proof.
  intros [_ N] Sh. specialize (N q Sh). assert (Z0 : (q - q == 0)%Q) by ring. rewrite Z0 in N. change (Qabs 0) with 0%Q in N.
  symmetry. apply Qabs_zero_eq, N.
Qed.

(** FloatToBigRat, BigFloatToBigRat, FloatToInt, FloatToUint *)
Lemma bigfloat_to_bigrat_ok x q o : denotes x q -> bigfloat_to_bigrat x o = (None, ten_digits x).
Proof. destruct x; cbn; try tauto. Qed.
Lemma float_to_bigrat_ok x q o : denotes x q -> float_to_bigrat x o = (None, ten_digits x).
Proof. destruct x; cbn; try tauto. Qed.

Lemma int_to_int_64 t z o : is_signed t = true -> in_type KInt64 z -> exact_conversion t z o (int_to_int KInt64 t z o).
Proof.
  intros St Hz. pose proof (from_big_exact t z o) as B. pose proof (bigint64_exact true z 0) as [G _]. cbn in G. specialize (G Hz).
  destruct t; cbn in St; try discriminate; cbn [to_int_from_big] in B; try (rewrite G in B; exact B).
  unfold int_to_int. cbn [num_bits Z.ltb Z.compare Pos.compare Pos.compare_cont andb]. split; [|tauto]. intros _.
  unfold cast. cbn [is_signed num_bits]. rewrite wrapS_id; [reflexivity|lia|]. unfold inS, minS, maxS. unfold in_type in Hz. cbn in *. lia.
Qed.
Lemma uint_to_uint_64 t z o : is_signed t = false -> in_type KUint64 z -> exact_conversion t z o (uint_to_uint KUint64 t z o).
Proof.
  intros St Hz. pose proof (from_big_exact t z o) as B. pose proof (bigint64_exact false z 0) as [G _]. cbn in G. specialize (G Hz).
  destruct t; cbn in St; try discriminate; cbn [to_int_from_big] in B; try (rewrite G in B; exact B).
  unfold uint_to_uint. cbn [num_bits Z.ltb Z.compare Pos.compare Pos.compare_cont andb]. split; [|tauto]. intros _.
  unfold cast. cbn [is_signed num_bits]. rewrite wrapU_id; [reflexivity|]. unfold inU, maxU. unfold in_type in Hz. cbn in *. lia.
Qed.

Definition float_int (t : ikind) (x : float) (o : Z) : option err * Z := if is_signed t then float_to_int t x o else float_to_uint t x o.
Lemma float_int_ok t x q o : denotes x q -> exact_to_int t (ten_digits x) o (float_int t x o).
Proof.
  intros H. assert (Hn : is_nan x = false) by (destruct x; cbn in H; tauto).
  pose proof (ten_digits_red x) as Rd. pose proof (float_to_bigrat_ok x q 0%Q H) as Eb.
  pose proof (bigrat64_exact (is_signed t) (ten_digits x) 0 Rd) as [R1 R2].
  unfold float_int, float_to_int, float_to_uint. rewrite Hn, Eb.
  assert (Dt : (exists z, (ten_digits x == inject_Z z)%Q /\ in_type (k64 (is_signed t)) z) \/
               ~ (exists z, (ten_digits x == inject_Z z)%Q /\ in_type (k64 (is_signed t)) z)).
  { destruct (integral_dec (ten_digits x) Rd) as [(z & E)|N].
    - assert (D : in_type (k64 (is_signed t)) z \/ ~ in_type (k64 (is_signed t)) z).
      { rewrite <- in64. match goal with |- ?b = true \/ _ => generalize b end. intros [|]; [left; reflexivity|right; discriminate]. }
      destruct D as [D|D]; [left; exists z; auto|right]. intros (z' & E' & D'). apply D. rewrite E in E'. apply inject_Z_inj in E'. subst z'. exact D'.
    - right. intros (z & E & _). apply N. exists z. exact E. }
  destruct Dt as [(z & E & Dz)|N].
  - apply (exact_to_int_eq _ (inject_Z z)); [symmetry; exact E|]. apply exact_to_int_of_z. specialize (R1 z E Dz).
    destruct (is_signed t) eqn:St; cbn [k64] in *; rewrite R1; apply exact_conversion_wrap; [apply int_to_int_64|apply uint_to_uint_64]; assumption.
  - destruct (R2 N) as [R3 _]. split.
    + intros z E Tz. exfalso. apply N. exists z. split; [exact E|apply in_type_64, Tz].
    + intros _. destruct (is_signed t); [destruct (bigrat_to_int64 (ten_digits x) 0) as [[e|] v]|destruct (bigrat_to_uint64 (ten_digits x) 0) as [[e|] v]];
        cbn in *; try congruence; split; congruence.
Qed.
Lemma float_int_special t x o : ~ finite x -> float_int t x o = (Some conv_err, o).
Proof. destruct x; cbn; try tauto; intros _; unfold float_int; destruct (is_signed t); reflexivity. Qed.

(** ** BigRatToBigFloat *)
Lemma round_half w den : 0 < den -> (2 * (den * w) + den) / (2 * den) = w.
Proof. intros H. symmetry. apply Z.div_unique with den; lia. Qed.
Definition rat_prec (q : Q) : Z := Z.max 53 (bits_of_len (length (Decimal.int_to_string (Qnum q)))).
Lemma bigrat_to_bigfloat_ok q w : Z.abs (Qnum q) * 10 ^ rat_prec q = Zpos (Qden q) * w -> short 2 (rat_prec q) q ->
  denotes (bigrat_to_bigfloat q) q.
Proof.
  intros Hw Sh. unfold bigrat_to_bigfloat, round_literal. fold (rat_prec q).
  assert (P0 : 0 < 10 ^ rat_prec q) by (apply Z.pow_pos_nonneg; unfold rat_prec; lia).
  replace (2 * Z.abs (Qnum q) * 10 ^ rat_prec q) with (2 * (Z.pos (Qden q) * w)) by lia.
  rewrite round_half by lia.
  assert (W0 : 0 <= w) by nia.
  set (W := if Qnum q <? 0 then - w else w).
  assert (Eq : (fr W (10 ^ rat_prec q) == q)%Q).
  { unfold fr. assert (E : (q == inject_Z (Qnum q) / inject_Z (Zpos (Qden q)))%Q) by (destruct q as [n d]; cbn [Qnum Qden]; apply Qmake_Qdiv).
    etransitivity; [|symmetry; exact E]. set (den := Zpos (Qden q)) in *. assert (Hden : 0 < den) by lia.
    assert (X : (inject_Z W * inject_Z den == inject_Z (Qnum q) * inject_Z (10 ^ rat_prec q))%Q).
    { rewrite <- !inject_Z_mult. subst W. destruct (Qnum q <? 0) eqn:C.
      - replace (- w * den) with (Qnum q * 10 ^ rat_prec q) by lia. reflexivity.
      - replace (w * den) with (Qnum q * 10 ^ rat_prec q) by lia. reflexivity. }
    assert (N1 := injZ_nz den Hden). assert (N2 := injZ_nz _ P0).
    apply (Qmult_inj_r _ _ (inject_Z den * inject_Z (10 ^ rat_prec q))%Q).
    - intros Z0. apply Qmult_integral in Z0. tauto.
    - transitivity (inject_Z W * inject_Z den)%Q; [field; exact N2|]. rewrite X. field. exact N1. }
  assert (E1 : (Qnum q <? 0) = (W <? 0) \/ W = 0). { subst W. destruct (Qnum q <? 0) eqn:C; lia. }
  assert (E2 : w = Z.abs W) by (subst W; destruct (Qnum q <? 0); lia).
  destruct E1 as [E1|E1].
  - rewrite E1, E2. apply (denotes_eq _ (fr W (10 ^ rat_prec q))); [exact Eq|]. apply to_prec_denotes; [unfold rat_prec; lia|exact P0|].
    apply (short_eq _ _ q); [symmetry; exact Eq|exact Sh].
  - assert (w0 : w = 0) by lia. rewrite w0. unfold to_prec. cbn [Z.eqb denotes]. etransitivity; [symmetry; exact Eq|]. rewrite E1.
    unfold fr, digits. destruct (Qnum q <? 0); cbn [Z.opp]; field; apply injZ_nz, P0.
Qed.
Lemma bigrat_int_ok q : Qred q = q -> integral q -> denotes (bigrat_to_bigfloat q) q.
Proof.
  intros Rd (z & E). pose proof (lowest_int q z Rd E) as ->. apply (bigrat_to_bigfloat_ok (inject_Z z) (Z.abs z * 10 ^ rat_prec (inject_Z z))).
  - change (Qnum (inject_Z z)) with z. change (Qden (inject_Z z)) with 1%positive. rewrite Z.mul_1_l. reflexivity.
  - apply short_int. eapply Z.lt_le_trans; [apply string_bits_fit|]. unfold rat_prec. apply Z.pow_le_mono_r; [lia|]. cbn [Qnum inject_Z]. lia.
Qed.
Lemma short_mono p p' q : p <= p' -> short 2 p q -> short 2 p' q.
Proof.
  intros H (m & e & H1 & H2). exists m, e. split; [|exact H2]. eapply Z.lt_le_trans; [exact H1|]. destruct (Z_lt_ge_dec p 0) as [Neg|].
  - rewrite (Z.pow_neg_r 2 p Neg) in H1. lia.
  - apply Z.pow_le_mono_r; lia.
Qed.
Lemma bigrat_dyadic_ok q m e : Z.abs m < 2 ^ 53 -> -53 <= e -> (q == digits 2 m e)%Q -> denotes (bigrat_to_bigfloat q) q.
Proof.
  intros Hm He Eq.
  assert (Sh : short 2 (rat_prec q) q). { apply (short_mono 53); [unfold rat_prec; lia|]. exists m, e. auto. }
  set (p := rat_prec q) in *. assert (Hp : 53 <= p) by (unfold p, rat_prec; lia).
  (* num * 2^53 = den * m * 2^(e+53) *)
  assert (X : Qnum q * 2 ^ 53 = Zpos (Qden q) * (m * 2 ^ (e + 53))).
  { apply inject_Z_inj. rewrite !inject_Z_mult.
    assert (E1 : (digits 2 m e * inject_Z (2 ^ 53) == inject_Z m * inject_Z (2 ^ (e + 53)))%Q).
    { unfold digits. rewrite <- !(P_Z 2) by lia. rewrite P_plus by exact two_le. ring. }
    rewrite <- E1, <- Eq. assert (E2 : (q == inject_Z (Qnum q) / inject_Z (Zpos (Qden q)))%Q) by (destruct q as [n d]; cbn [Qnum Qden]; apply Qmake_Qdiv).
    transitivity ((inject_Z (Qnum q) / inject_Z (Zpos (Qden q))) * inject_Z (Zpos (Qden q)) * inject_Z (2 ^ 53))%Q.
    - field. apply injZ_nz. lia.
    - rewrite <- E2. ring. }
  apply (bigrat_to_bigfloat_ok q (Z.abs m * 2 ^ (e + 53) * (2 ^ (p - 53) * 5 ^ p))); [|exact Sh]. fold p.
  replace (10 ^ p) with (2 ^ 53 * (2 ^ (p - 53) * 5 ^ p)).
  - assert (A : 0 < 2 ^ (e + 53)) by (apply Z.pow_pos_nonneg; lia).
    assert (Y : Z.abs (Qnum q) * 2 ^ 53 = Zpos (Qden q) * (Z.abs m * 2 ^ (e + 53))).
    { assert (B : 0 < 2 ^ 53) by reflexivity. set (c := 2 ^ 53) in *. set (a := 2 ^ (e + 53)) in *. clearbody a c.
      rewrite <- (Z.abs_eq c), <- (Z.abs_eq a) by lia. rewrite <- !Z.abs_mul, X, Z.abs_mul. rewrite Z.abs_eq by lia. reflexivity. }
    rewrite Z.mul_assoc, Y. ring.
  - rewrite Z.mul_assoc, <- Z.pow_add_r by lia. replace (53 + (p - 53)) with p by lia. rewrite <- Z.pow_mul_l. reflexivity.
Qed.

(** ** FloatToFloat *)
Lemma max32_ok : (max_finite f32 == max32)%Q. Proof. vm_compute. reflexivity. Qed.
Lemma smallest32_ok : (digits 2 1 (-149) == smallest32)%Q. Proof. vm_compute. reflexivity. Qed.
Lemma float_to_float_ok x q o : nonneg_mantissa x -> denotes x q ->
  ((q == 0)%Q \/ ((digits 2 1 (-149) <= Qabs q)%Q /\ (Qabs q <= max_finite f32)%Q) ->
     exists y, float_to_float S32 x o = (None, y) /\ nearest_in f32 q y /\ (representable f32 q -> denotes y q)) /\
  (~ ((q == 0)%Q \/ ((digits 2 1 (-149) <= Qabs q)%Q /\ (Qabs q <= max_finite f32)%Q)) ->
     float_to_float S32 x o = (Some conv_err, o)).
Proof.
  intros Hm H. pose proof (denotes_value x q H) as V. pose proof (float_cast_ok S32 x q Hm H) as (C1 & C2 & C3). cbn [fmt_of] in *.
  assert (T : float_to_float S32 x o =
    if (negb (Qeq_bool (Qabs (fvalue x)) 0) && negb (Qle_bool smallest32 (Qabs (fvalue x)))) || negb (Qle_bool (Qabs (fvalue x)) max32)
    then (Some conv_err, o) else (None, float_cast S32 x)) by (destruct x; cbn in H; try tauto; reflexivity).
  rewrite T. clear T. rewrite max32_ok, smallest32_ok.
  assert (Z1 : Qeq_bool (Qabs (fvalue x)) 0 = true <-> (q == 0)%Q).
  { rewrite Qeq_bool_iff, V. split.
    - intros Z. assert (D : (Qabs (q - 0) <= 0)%Q). { assert (E : (q - 0 == q)%Q) by ring. rewrite E, Z. apply Qle_refl. } apply Qabs_zero_eq, D.
    - intros ->. reflexivity. }
  assert (Z2 : Qle_bool smallest32 (Qabs (fvalue x)) = true <-> (smallest32 <= Qabs q)%Q) by (rewrite Qle_bool_iff, V; reflexivity).
  assert (Z3 : Qle_bool (Qabs (fvalue x)) max32 = true <-> (Qabs q <= max32)%Q) by (rewrite Qle_bool_iff, V; reflexivity).
  destruct (Qeq_bool (Qabs (fvalue x)) 0) eqn:B1; destruct (Qle_bool smallest32 (Qabs (fvalue x))) eqn:B2;
    destruct (Qle_bool (Qabs (fvalue x)) max32) eqn:B3; cbn [negb andb orb];
    (split; [intros G|intros G]); try reflexivity; try (exfalso; apply G; tauto).
  all: try (exists (float_cast S32 x); split; [reflexivity|split; [apply C3; rewrite max32_ok; tauto|exact C2]]).
  all: exfalso; destruct Z1 as [Z1 Z1'], Z2 as [Z2 Z2'], Z3 as [Z3 Z3']; destruct G as [G|[G1 G2]];
    try (specialize (Z1' G); discriminate); try (specialize (Z2' G1); discriminate); try (specialize (Z3' G2); discriminate).
  all: assert (Q0 : (Qabs q <= max32)%Q) by (rewrite (Z1 eq_refl); discriminate); specialize (Z3' Q0); discriminate.
Qed.
(** float32 to float64 *)
Lemma f32_in_f64 q : representable f32 q -> representable f64 q.
Proof.
  intros H. apply (rep_iff S32) in H. apply (rep_iff S64). destruct H as (m & e & H1 & H2 & H3). exists m, e. cbn [fmt_of fp femin femax f32 f64] in *.
  split; [|split; [lia|exact H3]]. eapply Z.lt_trans; [exact H1|reflexivity].
Qed.

(** ** Strings *)
Lemma in_base_ten_undec l : in_base_ten l = Decimal.undec (map (fun c => c - 48) l).
Proof.
  unfold in_base_ten, Decimal.undec. generalize 0. induction l as [|c l IH]; intros a; cbn [fold_left map]; [reflexivity|].
  rewrite IH. f_equal. lia.
Qed.
Lemma digit_string_iff l : digit_string l <-> l <> [] /\ forallb Decimal.is_digit l = true.
Proof.
  unfold digit_string. rewrite forallb_forall, Forall_forall.
  split; intros [H1 H2]; split; try exact H1; intros c Hc; specialize (H2 c Hc); unfold Decimal.is_digit in *; lia.
Qed.
Lemma digit_value l : digit_string l -> 0 <= in_base_ten l.
Proof.
  intros [_ H]. rewrite in_base_ten_undec. apply undec_bounds. unfold digits_ok. rewrite Forall_map.
  revert H. apply Forall_impl. intros c. lia.
Qed.
Definition sat64 (v : Z) : Z := if v <? 0 then minS 64 else maxS 64.
Lemma parse_uint64_ok l : digit_string l ->
  parse_uint64 l = if in_base_ten l <=? maxU 64 then (in_base_ten l, None) else (maxU 64, Some PRange).
Proof.
  intros H. apply digit_string_iff in H. destruct H as [H1 H2]. unfold parse_uint64. destruct l as [|c l]; [congruence|].
  rewrite H2, <- in_base_ten_undec. reflexivity.
Qed.
Lemma parse_uint64_bad l : ~ digit_string l -> parse_uint64 l = (0, Some PSyntax).
Proof.
  intros H. unfold parse_uint64. destruct l as [|c l]; [reflexivity|]. destruct (forallb Decimal.is_digit (c :: l)) eqn:C; [|reflexivity].
  exfalso. apply H, digit_string_iff. split; [discriminate|exact C].
Qed.
Lemma digit_string_dec l : digit_string l \/ ~ digit_string l.
Proof.
  destruct l as [|c l]; [right; intros [H _]; congruence|]. destruct (forallb Decimal.is_digit (c :: l)) eqn:C.
  - left. apply digit_string_iff. split; [discriminate|exact C].
  - right. intros H. apply digit_string_iff in H. destruct H. congruence.
Qed.
Lemma not_sign c l : digit_string (c :: l) -> (c =? 43) = false /\ (c =? 45) = false.
Proof. intros [_ H]. inversion H. lia. Qed.

Lemma string_to_int64_ok s v : decimal_text s v ->
  string_to_int64 s = if (minS 64 <=? v) && (v <=? maxS 64) then (None, v) else (Some conv_err, sat64 v).
Proof.
  intros H. assert (M : maxU 64 = 18446744073709551615 /\ minS 64 = - 9223372036854775808 /\ maxS 64 = 9223372036854775807) by (repeat split; reflexivity).
  destruct M as (M1 & M2 & M3). unfold sat64.
  assert (P : 2 ^ 63 = 9223372036854775808) by reflexivity.
  inversion H as [l Hl E1 E2|l Hl E1 E2|l Hl E1 E2]; subst s v; pose proof (digit_value l Hl) as V; unfold string_to_int64, parse_int64.
  - destruct l as [|c l]; [destruct Hl; congruence|]. destruct (not_sign c l Hl) as [-> ->]. rewrite (parse_uint64_ok _ Hl).
    set (n := in_base_ten (c :: l)) in *. rewrite M1, M2, M3, P. cbn [negb andb].
    destruct (n <=? 18446744073709551615) eqn:B.
    + destruct (9223372036854775808 <=? n) eqn:C; destruct ((-9223372036854775808 <=? n) && (n <=? 9223372036854775807)) eqn:D; try lia; try reflexivity.
      destruct (n <? 0) eqn:F; [lia|reflexivity].
    + destruct ((-9223372036854775808 <=? n) && (n <=? 9223372036854775807)) eqn:D; try lia. destruct (n <? 0) eqn:F; [lia|reflexivity].
  - rewrite Z.eqb_refl, (parse_uint64_ok _ Hl). set (n := in_base_ten l) in *. rewrite M1, M2, M3, P. cbn [negb andb].
    destruct (n <=? 18446744073709551615) eqn:B.
    + destruct (9223372036854775808 <=? n) eqn:C; destruct ((-9223372036854775808 <=? n) && (n <=? 9223372036854775807)) eqn:D; try lia; try reflexivity.
      destruct (n <? 0) eqn:F; [lia|reflexivity].
    + destruct ((-9223372036854775808 <=? n) && (n <=? 9223372036854775807)) eqn:D; try lia. destruct (n <? 0) eqn:F; [lia|reflexivity].
  - change (45 =? 43) with false. rewrite Z.eqb_refl, (parse_uint64_ok _ Hl). cbn [negb andb]. set (n := in_base_ten l) in *. rewrite M1, M2, M3, P.
    destruct (n <=? 18446744073709551615) eqn:B.
    + destruct (9223372036854775808 <? n) eqn:C; destruct ((-9223372036854775808 <=? - n) && (- n <=? 9223372036854775807)) eqn:D; try lia; try reflexivity.
      destruct (- n <? 0) eqn:F; [reflexivity|lia].
    + change (9223372036854775808 <? 18446744073709551615) with true. cbn iota.
      destruct ((-9223372036854775808 <=? - n) && (- n <=? 9223372036854775807)) eqn:D; try lia. destruct (- n <? 0) eqn:F; [reflexivity|lia].
Qed.
Lemma string_to_int64_bad s : ~ (exists v, decimal_text s v) -> string_to_int64 s = (Some conv_err, 0).
Proof.
  intros H. unfold string_to_int64, parse_int64. destruct s as [|c r]; [reflexivity|].
  destruct (c =? 43) eqn:C1; [|destruct (c =? 45) eqn:C2].
  - destruct (digit_string_dec r) as [D|D]; [exfalso; apply H|rewrite (parse_uint64_bad r D); reflexivity].
    apply Z.eqb_eq in C1. subst c. eexists. apply dt_plus, D.
  - destruct (digit_string_dec r) as [D|D]; [exfalso; apply H|rewrite (parse_uint64_bad r D); reflexivity].
    apply Z.eqb_eq in C2. subst c. eexists. apply dt_minus, D.
  - destruct (digit_string_dec (c :: r)) as [D|D]; [exfalso; apply H|rewrite (parse_uint64_bad _ D); reflexivity].
    eexists. apply dt_plain, D.
Qed.
Lemma string_to_uint64_ok l : digit_string l ->
  string_to_uint64 l = if in_base_ten l <=? maxU 64 then (None, in_base_ten l) else (Some conv_err, maxU 64).
Proof. intros H. unfold string_to_uint64. rewrite (parse_uint64_ok l H). destruct (_ <=? _); reflexivity. Qed.
Lemma string_to_uint64_bad l : ~ digit_string l -> string_to_uint64 l = (Some conv_err, 0).
Proof. intros H. unfold string_to_uint64. rewrite (parse_uint64_bad l H). reflexivity. Qed.
Lemma bigint_body l : digit_string l -> forall (neg : bool),
  match l with [] => (Some conv_err, None) | _ => if forallb Decimal.is_digit l then
    let v := Decimal.undec (map (fun c => c - 48) l) in (@None err, Some (if neg then - v else v)) else (Some conv_err, None) end
  = (None, Some (if neg then - in_base_ten l else in_base_ten l)).
Proof.
  intros H neg. apply digit_string_iff in H. destruct H as [H1 H2]. destruct l as [|c l]; [congruence|]. rewrite H2, <- in_base_ten_undec. reflexivity.
Qed.
Lemma string_to_bigint_ok s v : decimal_text s v -> string_to_bigint s = (None, Some v).
Proof.
  intros H. inversion H as [l Hl E1 E2|l Hl E1 E2|l Hl E1 E2]; subst s v; unfold string_to_bigint.
  - destruct l as [|c l]; [destruct Hl; congruence|]. destruct (not_sign c l Hl) as [-> ->]. apply (bigint_body _ Hl false).
  - rewrite Z.eqb_refl. apply (bigint_body _ Hl false).
  - change (45 =? 43) with false. rewrite Z.eqb_refl. apply (bigint_body _ Hl true).
Qed.
Lemma bigint_body_bad l (neg : bool) : ~ digit_string l ->
  match l with [] => (Some conv_err, None) | _ => if forallb Decimal.is_digit l then
    let v := Decimal.undec (map (fun c => c - 48) l) in (@None err, Some (if neg then - v else v : Z)) else (Some conv_err, None) end
  = (Some conv_err, None).
Proof.
  intros H. destruct l as [|c l]; [reflexivity|]. destruct (forallb Decimal.is_digit (c :: l)) eqn:C; [|reflexivity].
  exfalso. apply H, digit_string_iff. split; [discriminate|exact C].
Qed.
Lemma string_to_bigint_bad s : ~ (exists v, decimal_text s v) -> string_to_bigint s = (Some conv_err, None).
Proof.
  intros H. unfold string_to_bigint. destruct s as [|c r]; [reflexivity|].
  destruct (c =? 43) eqn:C1; [|destruct (c =? 45) eqn:C2].
  - apply (bigint_body_bad r false). intros D. apply H. apply Z.eqb_eq in C1. subst c. eexists. apply dt_plus, D.
  - apply (bigint_body_bad r true). intros D. apply H. apply Z.eqb_eq in C2. subst c. eexists. apply dt_minus, D.
  - apply (bigint_body_bad (c :: r) false). intros D. apply H. eexists. apply dt_plain, D.
Qed.
Lemma chr_digits n : 0 <= n -> digit_string (map Decimal.chr (Decimal.dec n)) /\ in_base_ten (map Decimal.chr (Decimal.dec n)) = n.
Proof.
  intros H. split.
  - split.
    + pose proof (dec_len_pos n H) as L. destruct (Decimal.dec n); [cbn in L; lia|discriminate].
    + apply Forall_map. pose proof (dec_ok n H) as D. revert D. apply Forall_impl. intros d Hd. unfold Decimal.chr. lia.
  - rewrite in_base_ten_undec, unchr_chr. apply undec_dec, H.
Qed.
Lemma string_decimal v : decimal_text (Decimal.int_to_string v) v.
Proof.
  unfold Decimal.int_to_string. destruct (v <? 0) eqn:C.
  - destruct (chr_digits (- v) ltac:(lia)) as [D E]. pose proof (dt_minus _ D) as X. rewrite E in X. replace (- - v) with v in X by lia. exact X.
  - destruct (chr_digits v ltac:(lia)) as [D E]. pose proof (dt_plain _ D) as X. rewrite E in X. exact X.
Qed.
Lemma string_digits v : 0 <= v -> digit_string (Decimal.int_to_string v) /\ in_base_ten (Decimal.int_to_string v) = v.
Proof. intros H. unfold Decimal.int_to_string. destruct (v <? 0) eqn:C; [lia|]. apply chr_digits, H. Qed.

(** ** StringToFloat *)
Lemma round_literal_ok p (neg : bool) n d : 1 <= p -> 0 <= n -> 0 < d ->
  exists y, denotes (round_literal p (LNum neg n d)) y /\ nonneg_mantissa (round_literal p (LNum neg n d)) /\
  nearest_short 2 p (if neg then - fr n d else fr n d) y.
Proof.
  intros Hp Hn Hd. cbn [round_literal]. destruct (to_prec_nearest p neg n d Hp Hn Hd) as (m & e & E & Hm & N). rewrite E.
  exists (if neg then - digits 2 m e else digits 2 m e)%Q. cbn [denotes nonneg_mantissa]. split; [destruct neg; [rewrite digits_opp|]; reflexivity|].
  split; [exact Hm|].
  assert (Sh : short 2 p (digits 2 m e)).
  { unfold to_prec in E. destruct (n =? 0) eqn:C.
    - injection E as <- <-. exists 0, 0. split; [apply Z.pow_pos_nonneg; lia|reflexivity].
    - pose proof (round_range 2 two_le p None n d Hp ltac:(lia) Hd) as R. destruct (round 2 p None n d) as [m1 e1]. cbn [fst] in R.
      injection E as -> ->. destruct (Z.eq_dec m (2 ^ p)) as [Q|Q].
      + exists (2 ^ (p - 1)), (1 + e). pose proof (Z.pow_pos_nonneg 2 (p - 1) ltac:(lia) ltac:(lia)) as PP.
        assert (PE : 2 ^ p = 2 ^ (p - 1) * 2 ^ 1) by (rewrite <- Z.pow_add_r by lia; f_equal; lia). split; [change (2 ^ 1) with 2 in PE; lia|].
        rewrite (digits_shift (2 ^ (p - 1)) 1 e) by lia. rewrite <- PE, Q. reflexivity.
      + exists m, e. split; [lia|reflexivity]. }
  split; [destruct neg; [apply short_opp|]; exact Sh|]. intros z (m' & e' & H1 & H2). rewrite H2. destruct neg.
  - assert (E2 : (digits 2 m' e' == - digits 2 (- m') e')%Q) by (rewrite digits_opp; ring). rewrite E2, !Qabs_opp_minus. apply N. lia.
  - apply N. lia.
Qed.
