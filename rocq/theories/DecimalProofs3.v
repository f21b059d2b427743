(** Aligning scales; sums and differences. *)
From Verif Require Import Base GoInt Decimal DecimalSpec DecDigits DecimalProofs DecimalProofs2.
Open Scope Z_scope.
Open Scope go_scope.

Lemma iter_mul10 n : forall v, Z.abs v * p10 n < 2 ^ 63 -> Nat.iter n (fun v => wrapS 64 (v * 10)) v = v * p10 n.
Proof.
  induction n; intros v H; cbn [Nat.iter nat_rect].
  - rewrite p10_0. lia.
  - rewrite p10_S in H. pose proof (p10_pos n). change (Nat.iter n (fun v => wrapS 64 (v * 10)) v) with
      (Nat.iter n (fun v0 => wrapS 64 (v0 * 10)) v). unfold Nat.iter in IHn. rewrite IHn by nia.
    rewrite wrap64_id. { rewrite p10_S. ring. }
    assert (Z.abs (v * p10 n * 10) < 2 ^ 63). { rewrite !Z.abs_mul, (Z.abs_eq (p10 n)) by lia. change (Z.abs 10) with 10. lia. }
    unfold int64. lia.
Qed.

Lemma fits_code n diff : 0 <= n -> (diff <= 18)%nat ->
  (Z.of_nat diff <=? 18 - Z.of_nat (length (dec n))) = true <-> Z.max 1 n * p10 diff <= p10 18 - 1.
Proof.
  intros Hn Hd. rewrite Z.leb_le. rewrite (p10_sub 18 diff Hd). pose proof (p10_pos diff).
  pose proof (dec_len_le n (18 - diff) Hn) as [A B]. split; intros.
  - assert (Z.max 1 n < p10 (18 - diff)) by (apply A; lia).
    assert (0 <= (p10 (18 - diff) - Z.max 1 n - 1) * p10 diff) by (apply Z.mul_nonneg_nonneg; lia). lia.
  - assert (Z.max 1 n < p10 (18 - diff)).
    { apply Z.nle_gt. intro X. apply (Z.mul_le_mono_nonneg_r _ _ (p10 diff)) in X; lia. }
    apply B in H1. lia.
Qed.

Lemma str_abs d : - 2 ^ 63 < dval d < 2 ^ 63 ->
  int_to_string (if 0 <=? dval d then dval d else neg64 (dval d)) = map chr (dec (Z.abs (dval d))).
Proof.
  intros. rewrite abs64_abs' by auto. unfold int_to_string. destruct (Z.ltb_spec (Z.abs (dval d)) 0); [lia|reflexivity].
Qed.

Lemma adjust_larger_fits d1 d2 : valid d1 -> valid d2 -> (dscale d2 < dscale d1)%nat -> fits_scale d2 (dscale d1) ->
  adjust_larger d1 d2 = Done (None, d1, mkD (dval d2 * p10 (dscale d1 - dscale d2)) (dscale d1) (denorm d2)).
Proof.
  intros V1 V2 L F. unfold adjust_larger. rewrite !str_abs by (apply valid_int64; auto). rewrite !map_length.
  assert (D : (dscale d1 - dscale d2 <= 18)%nat) by (destruct V1; lia).
  pose proof (proj2 (fits_code (Z.abs (dval d2)) _ ltac:(lia) D) F) as E. rewrite E.
  rewrite iter_mul10; auto. unfold fits_scale in F. rewrite p10_18 in F. pose proof (p10_pos (dscale d1 - dscale d2)).
  change (2 ^ 63) with 9223372036854775808. nia.
Qed.

Lemma undec_snoc l x : undec (l ++ [x]) = 10 * undec l + x.
Proof. rewrite undec_app. cbn [length]. rewrite p10_S, p10_0. unfold undec at 2. cbn [fold_left]. lia. Qed.

Lemma round_loop_spec r : forall b, digits_ok r -> exists r' c, round_loop (map chr r) b = (map chr r', c) /\ digits_ok r' /\
  length r' = length r /\ undec (rev r') + (if c then p10 (length r) else 0) = undec (rev r) + (if b then 1 else 0).
Proof.
  induction r as [|x r IH]; intros b H; cbn [map round_loop].
  - exists [], b. repeat split; auto. 
  - inversion H as [|? ? A B]; subst. destruct b.
    + destruct (IH (chr x =? 57) B) as [r' [c [E [F [G I]]]]]. rewrite E. unfold chr in *.
      destruct (Z.eqb_spec (x + 48) 57).
      * exists (0 :: r'), c. cbn [map rev length]. repeat split; auto. { constructor; auto. lia. }
        rewrite !undec_snoc, p10_S.
        replace x with 9 by lia. destruct c; lia.
      * exists (x + 1 :: r'), c. cbn [map rev length]. repeat split; auto. { f_equal. f_equal. unfold chr. lia. } { constructor; auto. lia. }
        rewrite !undec_snoc, p10_S.
        destruct c; lia.
    + exists (x :: r), false. repeat split; auto.
Qed.

Lemma half_div n q r m : 0 < m -> 0 <= r < m -> n = q * m + r -> (2 * n + m) / (2 * m) = q + (if m <=? 2 * r then 1 else 0).
Proof.
  intros Hm Hr ->. symmetry. destruct (Z.leb_spec m (2 * r)).
  - apply (Z.div_unique _ _ _ (2 * r - m)); lia.
  - apply (Z.div_unique _ _ _ (2 * r + m)); lia.
Qed.

Lemma fits_not n diff : 0 <= n -> (diff <= 18)%nat -> ~ (Z.max 1 n * p10 diff <= p10 18 - 1) ->
  (Z.of_nat diff <=? 18 - Z.of_nat (length (dec n))) = false.
Proof. intros H D N. apply not_true_iff_false. rewrite fits_code; auto. Qed.

Lemma adjust_larger_round d1 d2 : valid d1 -> valid d2 -> (dscale d2 < dscale d1)%nat -> ~ fits_scale d2 (dscale d1) ->
  Z.abs (dval d2) <= 999999999999999994 ->
  adjust_larger d1 d2 =
    if p10 (dscale d1 - dscale d2 - 1) <=? Z.max 1 (Z.abs (dval d1))
    then Done (None, mkD (round_half_away (dval d1) (p10 (dscale d1 - dscale d2))) (dscale d2) (denorm d1), d2)
    else Panicked.
Proof.
  intros V1 V2 L F R. unfold adjust_larger. rewrite !str_abs by (apply valid_int64; auto). rewrite !map_length.
  set (diff := (dscale d1 - dscale d2)%nat). set (n := Z.abs (dval d1)). assert (Hn : 0 <= n) by lia.
  assert (D : (diff <= 18)%nat) by (destruct V1; lia).
  rewrite fits_not by (auto; lia).
  unfold roundMaxValue, roundMinValue.
  destruct (Z.ltb_spec 999999999999999994 (dval d2)); [lia|].
  destruct (Z.ltb_spec (dval d2) (-999999999999999994)); [lia|].
  pose proof (dec_len_le n (diff - 1) Hn) as LE.
  destruct (Nat.ltb_spec (length (dec n)) diff) as [S|S].
  { destruct (Z.leb_spec (p10 (diff - 1)) (Z.max 1 n)); auto. assert (Z.max 1 n < p10 (diff - 1)) by (apply LE; lia). lia. }
  destruct (Z.leb_spec (p10 (diff - 1)) (Z.max 1 n)).
  2:{ assert (length (dec n) <= diff - 1)%nat by (apply LE; lia). lia. }
  set (k := (length (dec n) - diff)%nat). pose proof (dec_ok n Hn) as OK. 
  assert (K : (k < length (dec n))%nat) by lia.
  destruct (nth_error (dec n) k) as [c|] eqn:NE. 2:{ apply nth_error_None in NE. lia. }
  rewrite nth_error_map, NE. cbn [option_map].
  destruct (nth_error_split _ _ NE) as [l1 [l2 [E1 E2]]].
  assert (FN : firstn k (dec n) = l1). { rewrite E1, <- E2. rewrite firstn_app, Nat.sub_diag, firstn_all, firstn_O, app_nil_r. reflexivity. }
  rewrite firstn_map, FN, <- map_rev.
  rewrite E1 in OK. apply Forall_app in OK as [O1 O2]. inversion O2 as [|? ? Oc O3]; subst x l.
  assert (Or : digits_ok (rev l1)) by (apply Forall_rev; auto).
  destruct (round_loop_spec (rev l1) (53 <=? chr c) Or) as [r' [cy [Q [O' [Ln U]]]]]. rewrite Q. rewrite rev_length in *. rewrite rev_involutive in U.
  assert (DV : n = undec l1 * p10 diff + undec (c :: l2)).
  { rewrite <- (undec_dec n Hn) at 1. rewrite E1, undec_app. f_equal. f_equal. f_equal.
    apply (f_equal (@length Z)) in E1. rewrite app_length in E1. lia. }
  assert (LL : length (c :: l2) = diff). { apply (f_equal (@length Z)) in E1. rewrite app_length in E1. lia. }
  pose proof (undec_bounds _ O2) as B2. rewrite LL in B2.
  assert (RND : (53 <=? chr c) = (p10 diff <=? 2 * undec (c :: l2))).
  { rewrite undec_cons. cbn [length] in LL. rewrite <- LL, p10_S. pose proof (undec_bounds _ O3). unfold chr.
    destruct (Z.leb_spec 53 (c + 48)), (Z.leb_spec (10 * p10 (length l2)) (2 * (c * p10 (length l2) + undec l2))); auto; nia. }
  pose proof (half_div n _ _ (p10 diff) (p10_pos diff) B2 DV) as HD.
  rewrite RND in U.
  assert (PV : parse_digits (if cy then 49 :: rev (map chr r') else rev (map chr r')) = (2 * n + p10 diff) / (2 * p10 diff)).
  { rewrite HD, <- U, <- map_rev.
    assert (N18 : n < p10 18) by (destruct V1; lia).
    assert (LB : p10 (length l1) <= p10 17).
    { apply p10_mono. assert (length (dec n) <= 18)%nat.
      { apply dec_len_le; auto. rewrite p10_18 in *. lia. }
      rewrite E1, app_length in H2. cbn [length] in H2. lia. }
    replace (if cy then 49 :: map chr (rev r') else map chr (rev r')) with (map chr (if cy then 1 :: rev r' else rev r')) by (destruct cy; reflexivity).
    assert (Orr : digits_ok (rev r')) by (apply Forall_rev; auto).
    pose proof (undec_bounds _ Orr) as BR. rewrite rev_length, Ln in BR. change (p10 17) with 100000000000000000 in LB.
    rewrite parse_digits_dec.
    - destruct cy; [rewrite undec_cons, rev_length, Ln|]; lia.
    - destruct cy; auto. constructor; auto. lia.
    - change (2 ^ 63) with 9223372036854775808. destruct cy; [rewrite undec_cons, rev_length, Ln|]; lia. }
  rewrite PV. unfold round_half_away. fold n. do 3 f_equal.
  assert (PB : 0 <= (2 * n + p10 diff) / (2 * p10 diff) < 2 ^ 63).
  { pose proof (p10_pos diff). split. { apply Z.div_pos; lia. }
    apply Z.div_lt_upper_bound; [lia|]. pose proof (valid_bound d1 V1). change (2 ^ 63) with 9223372036854775808. nia. }
  f_equal. destruct (Z.ltb_spec (dval d1) 0).
  - rewrite neg64_id by lia. rewrite Z.sgn_neg by lia. lia.
  - destruct (Z.eq_dec (dval d1) 0) as [E0|E0].
    + rewrite E0. cbn [Z.sgn]. assert (n = 0) by lia. rewrite H3. pose proof (p10_pos diff).
      rewrite Z.div_small; lia.
    + rewrite Z.sgn_pos by lia. lia.
Qed.

Lemma adjust_larger_err d1 d2 : valid d1 -> valid d2 -> (dscale d2 < dscale d1)%nat -> ~ fits_scale d2 (dscale d1) ->
  999999999999999994 < Z.abs (dval d2) ->
  adjust_larger d1 d2 = Done (Some (if 0 <? dval d2 then ErrTooLargeToRound else ErrTooSmallToRound), d1, d2).
Proof.
  intros V1 V2 L F R. unfold adjust_larger. rewrite !str_abs by (apply valid_int64; auto). rewrite !map_length.
  assert (D : (dscale d1 - dscale d2 <= 18)%nat) by (destruct V1; lia).
  rewrite fits_not by (auto; lia). unfold roundMaxValue, roundMinValue.
  destruct (Z.ltb_spec 999999999999999994 (dval d2)). { destruct (Z.ltb_spec 0 (dval d2)); auto. lia. }
  destruct (Z.ltb_spec (dval d2) (-999999999999999994)); [|lia]. destruct (Z.ltb_spec 0 (dval d2)); auto. lia.
Qed.

(** ** Sums *)
Lemma value_plus d e : (value d + value e)%Q = Qmake (dval d * p10 (dscale e) + dval e * p10 (dscale d)) (Z.to_pos (p10 (dscale d)) * Z.to_pos (p10 (dscale e))).
Proof. unfold Qplus, value. cbn [Qnum Qden]. rewrite !pos_p10. reflexivity. Qed.

Lemma add_same_scale a b : dscale a = dscale b ->
  (value (mkD (dval a + dval b) (dscale a) false) == value a + value b)%Q.
Proof.
  intros E. rewrite value_plus. unfold Qeq, value. cbn [Qnum Qden dval dscale]. rewrite Pos2Z.inj_mul, !pos_p10, E. ring.
Qed.

Lemma valid_add_range a b : Z.abs a <= p10 18 - 1 -> Z.abs b <= p10 18 - 1 -> int64 (a + b).
Proof. rewrite p10_18. unfold int64. change (2 ^ 63) with 9223372036854775808. lia. Qed.

Lemma add_aligned d o a b : adjust_scale d o = Done (None, a, b) -> Z.abs (dval a) <= p10 18 - 1 -> Z.abs (dval b) <= p10 18 - 1 ->
  add_decimal d o =
    if Z.abs (dval a + dval b) <=? p10 18 - 1 then Done (None, apply_norm (mkD (dval a + dval b) (dscale a) (denorm a)))
    else Done (Some (if 0 <? dval a + dval b then ErrDecOverflow else ErrDecUnderflow), mkD 0 0 false).
Proof.
  intros E A B. unfold add_decimal. rewrite E. cbn [obind]. rewrite wrap64_id by (apply valid_add_range; auto).
  unfold sign, maxValue, minValue. cbn [dval]. rewrite p10_18 in *.
  destruct (Z.leb_spec (Z.abs (dval a + dval b)) (1000000000000000000 - 1)) as [L|L].
  - assert (N1 : (999999999999999999 <? dval a + dval b) = false) by (apply Z.ltb_ge; lia).
    assert (N2 : (dval a + dval b <? -999999999999999999) = false) by (apply Z.ltb_ge; lia).
    rewrite N1, N2, !andb_false_r. reflexivity.
  - destruct (Z.ltb_spec 0 (dval a + dval b)).
    + destruct (Z.ltb_spec 0 (dval b)); [|lia]. destruct (Z.ltb_spec 999999999999999999 (dval a + dval b)); [|lia]. reflexivity.
    + destruct (Z.ltb_spec (dval a + dval b) 0); [|lia]. destruct (Z.ltb_spec 0 (dval b)); [lia|].
      destruct (Z.ltb_spec (dval b) 0); [|lia]. destruct (Z.ltb_spec (dval a + dval b) (-999999999999999999)); [|lia].
      rewrite andb_false_r. reflexivity.
Qed.

Lemma fits_mag d s : fits_scale d s -> Z.abs (dval d * p10 (s - dscale d)) <= p10 18 - 1.
Proof.
  unfold fits_scale. intros F. rewrite Z.abs_mul, (Z.abs_eq (p10 _)) by (pose proof (p10_pos (s - dscale d)); lia).
  pose proof (p10_pos (s - dscale d)). nia.
Qed.

(** when the operands can be aligned exactly *)
Lemma adjust_alignable d o : valid d -> valid o -> alignable d o ->
  let S := Nat.max (dscale d) (dscale o) in
  adjust_scale d o = Done (None, mkD (dval d * p10 (S - dscale d)) S (denorm d), mkD (dval o * p10 (S - dscale o)) S (denorm o)) /\
  Z.abs (dval d * p10 (S - dscale d)) <= p10 18 - 1 /\ Z.abs (dval o * p10 (S - dscale o)) <= p10 18 - 1.
Proof.
  intros V1 V2 A S. unfold adjust_scale. destruct d as [v1 s1 n1], o as [v2 s2 n2]. cbn [dval dscale denorm] in *.
  assert (M1 := proj1 V1). assert (M2 := proj1 V2). cbn [dval] in M1, M2.
  destruct (Nat.eqb_spec s1 s2) as [E|E].
  - subst s2. unfold S. rewrite Nat.max_id, Nat.sub_diag, p10_0, !Z.mul_1_r. auto.
  - destruct A as [A|[[L A]|[L A]]]; [cbn in A; contradiction| |]; cbn [dval dscale] in *.
    + destruct (Nat.ltb_spec s1 s2); [|lia]. rewrite adjust_larger_fits by auto. cbn [obind dval dscale denorm].
      unfold S. rewrite Nat.max_r, Nat.sub_diag, p10_0, Z.mul_1_r by lia. repeat split; auto. apply (fits_mag (mkD v1 s1 n1)). exact A.
    + destruct (Nat.ltb_spec s1 s2); [lia|]. rewrite adjust_larger_fits by auto. cbn [dval dscale denorm].
      unfold S. rewrite Nat.max_l, Nat.sub_diag, p10_0, Z.mul_1_r by lia. repeat split; auto. apply (fits_mag (mkD v2 s2 n2)). exact A.
Qed.

Lemma rescale_value d s dn : (dscale d <= s)%nat -> (value (mkD (dval d * p10 (s - dscale d)) s dn) == value d)%Q.
Proof. intros L. apply value_eq. cbn [dval dscale]. rewrite (p10_sub s (dscale d) L). ring. Qed.

Lemma norm_result v s dn : Z.abs v <= p10 18 - 1 -> (s <= 18)%nat ->
  let r := apply_norm (mkD v s dn) in
  (value r == Qmake v (Z.to_pos (p10 s)))%Q /\ valid r /\ denorm r = dn /\ (dn = false -> canonical r).
Proof.
  intros A B r. assert (V : valid (mkD v s dn)) by (split; auto). pose proof (valid_int64' _ V) as I. unfold r.
  split; [rewrite apply_norm_value by auto; reflexivity|]. split; [apply apply_norm_valid; auto|].
  split; [rewrite apply_norm_denorm by auto; reflexivity|]. intros. apply apply_norm_canonical; auto.
Qed.

Lemma add_exact d o : valid d -> valid o -> alignable d o ->
  let S := Nat.max (dscale d) (dscale o) in
  let sum := dval d * p10 (S - dscale d) + dval o * p10 (S - dscale o) in
  (Z.abs sum <= p10 18 - 1 ->
     exists r, dec_add d o = Done (None, r) /\ (value r == value d + value o)%Q /\ valid r /\ denorm r = denorm d /\
               (denorm d = false -> canonical r)) /\
  (p10 18 - 1 < sum -> dec_add d o = Done (Some ErrDecOverflow, mkD 0 0 false)) /\
  (sum < - (p10 18 - 1) -> dec_add d o = Done (Some ErrDecUnderflow, mkD 0 0 false)).
Proof.
  intros V1 V2 A S sum. destruct (adjust_alignable d o V1 V2 A) as [E [M1 M2]]. fold S in E, M1, M2.
  unfold dec_add. rewrite (add_aligned d o _ _ E); auto. cbn [dval dscale denorm]. fold sum. split; [|split].
  - intros B. destruct (Z.leb_spec (Z.abs sum) (p10 18 - 1)); [|lia]. eexists. split; [reflexivity|].
    destruct (norm_result sum S (denorm d) B) as [N1 [N2 [N3 N4]]]. { destruct V1, V2. lia. }
    split; auto. rewrite N1.
    assert (X := add_same_scale (mkD (dval d * p10 (S - dscale d)) S false) (mkD (dval o * p10 (S - dscale o)) S false) eq_refl).
    cbn [dval dscale] in X. fold sum in X. rewrite (rescale_value d S false), (rescale_value o S false) in X by lia. exact X.
  - intros B. rewrite p10_18 in *. destruct (Z.leb_spec (Z.abs sum) (1000000000000000000 - 1)); [lia|]. destruct (Z.ltb_spec 0 sum); [reflexivity|lia].
  - intros B. rewrite p10_18 in *. destruct (Z.leb_spec (Z.abs sum) (1000000000000000000 - 1)); [lia|]. destruct (Z.ltb_spec 0 sum); [lia|reflexivity].
Qed.

Lemma negate_spec o : valid o -> negate o = mkD (- dval o) (dscale o) (denorm o).
Proof. intros V. unfold negate. rewrite neg64_id by (apply valid_int64; auto). reflexivity. Qed.

Lemma sub_exact d o : valid d -> valid o -> alignable d o ->
  let S := Nat.max (dscale d) (dscale o) in
  let diff := dval d * p10 (S - dscale d) - dval o * p10 (S - dscale o) in
  (Z.abs diff <= p10 18 - 1 ->
     exists r, dec_sub d o = Done (None, r) /\ (value r == value d - value o)%Q /\ valid r /\ denorm r = denorm d /\
               (denorm d = false -> canonical r)) /\
  (p10 18 - 1 < diff -> dec_sub d o = Done (Some ErrDecOverflow, mkD 0 0 false)) /\
  (diff < - (p10 18 - 1) -> dec_sub d o = Done (Some ErrDecUnderflow, mkD 0 0 false)).
Proof.
  intros V1 V2 A S diff. unfold dec_sub. rewrite (negate_spec o V2).
  assert (VN : valid (mkD (- dval o) (dscale o) (denorm o))). { destruct V2. split; cbn [dval dscale]; auto. rewrite Z.abs_opp. auto. }
  assert (AN : alignable d (mkD (- dval o) (dscale o) (denorm o))).
  { unfold alignable, fits_scale in *. cbn [dval dscale]. rewrite Z.abs_opp. exact A. }
  pose proof (add_exact d _ V1 VN AN) as X. cbn [dval dscale] in X. fold S in X. cbv zeta in X.
  replace (dval d * p10 (S - dscale d) + - dval o * p10 (S - dscale o)) with diff in X by (unfold diff; ring). exact X.
Qed.

Lemma round_half_mag z m : 10 <= m -> Z.abs z <= p10 18 - 1 -> Z.abs (round_half_away z m) <= 100000000000000000.
Proof.
  intros M R. rewrite p10_18 in R. unfold round_half_away. rewrite Z.abs_mul. 
  assert (0 <= (2 * Z.abs z + m) / (2 * m)) by (apply Z.div_pos; lia). rewrite (Z.abs_eq (_ / _)) by auto.
  assert ((2 * Z.abs z + m) / (2 * m) < 100000000000000001). { apply Z.div_lt_upper_bound; lia. }
  assert (Z.abs (Z.sgn z) <= 1) by lia. nia.
Qed.

Lemma add_rounded d o : valid d -> valid o -> (dscale o < dscale d)%nat -> ~ fits_scale o (dscale d) ->
  Z.abs (dval o) <= 999999999999999994 -> p10 (dscale d - dscale o - 1) <= Z.max 1 (Z.abs (dval d)) ->
  let sum := round_half_away (dval d) (p10 (dscale d - dscale o)) + dval o in
  let result := if Z.abs sum <=? p10 18 - 1 then (None, Qmake sum (Z.to_pos (p10 (dscale o))))
                else (Some (if 0 <? sum then ErrDecOverflow else ErrDecUnderflow), 0%Q) in
  exists r1 r2, dec_add d o = Done (fst result, r1) /\ (value r1 == snd result)%Q /\
                dec_add o d = Done (fst result, r2) /\ (value r2 == snd result)%Q.
Proof.
  intros V1 V2 L F R K sum result. pose proof (adjust_larger_round d o V1 V2 L F R) as E.
  destruct (Z.leb_spec (p10 (dscale d - dscale o - 1)) (Z.max 1 (Z.abs (dval d)))); [|lia].
  set (v := round_half_away (dval d) (p10 (dscale d - dscale o))) in *.
  assert (VM : Z.abs v <= p10 18 - 1).
  { unfold v. etransitivity; [apply round_half_mag|rewrite p10_18; lia]. 
    - destruct (dscale d - dscale o)%nat as [|k] eqn:KK; [lia|]. rewrite p10_S. pose proof (p10_pos k). lia.
    - apply V1. }
  assert (E1 : adjust_scale d o = Done (None, mkD v (dscale o) (denorm d), o)).
  { unfold adjust_scale. destruct (Nat.eqb_spec (dscale d) (dscale o)); [lia|]. destruct (Nat.ltb_spec (dscale d) (dscale o)); [lia|]. exact E. }
  assert (E2 : adjust_scale o d = Done (None, o, mkD v (dscale o) (denorm d))).
  { unfold adjust_scale. destruct (Nat.eqb_spec (dscale o) (dscale d)); [lia|]. destruct (Nat.ltb_spec (dscale o) (dscale d)); [|lia]. rewrite E. reflexivity. }
  unfold dec_add. rewrite (add_aligned _ _ _ _ E1), (add_aligned _ _ _ _ E2); cbn [dval dscale denorm]; try (apply V2); auto.
  rewrite (Z.add_comm (dval o) v). fold sum. unfold result. destruct (Z.leb_spec (Z.abs sum) (p10 18 - 1)) as [B|B]; cbn [fst snd].
  - destruct (norm_result sum (dscale o) (denorm d) B) as [N1 _]; [apply V2|]. destruct (norm_result sum (dscale o) (denorm o) B) as [N2 _]; [apply V2|].
    eexists. eexists. split; [reflexivity|]. split; [exact N1|]. split; [reflexivity|exact N2].
  - eexists. eexists. split; [reflexivity|]. split; [reflexivity|]. split; reflexivity.
Qed.
