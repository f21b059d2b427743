(** Products. *)
From Verif Require Import Base GoInt Decimal DecimalSpec DecDigits DecimalProofs DecimalProofs2 DecimalProofs3.
Open Scope Z_scope.
Open Scope go_scope.

Lemma round_step_bound P : 0 <= P < 2 ^ 63 ->
  let q := Z.quot P 10 in let f := if 5 <=? Z.rem P 10 then wrapS 64 (q + 1) else q in
  0 <= f <= P /\ Z.abs (f * 10 - P) <= 5.
Proof.
  intros R q f. pose proof (Z.quot_rem P 10 ltac:(lia)) as E. pose proof (Z.rem_bound_pos P 10 ltac:(lia) ltac:(lia)) as B. fold q in E.
  unfold f. destruct (Z.leb_spec 5 (Z.rem P 10)); [rewrite wrap64_id by (unfold int64; lia)|]; lia.
Qed.

Lemma round_scale_bound n : forall P, 0 <= P < 2 ^ 63 ->
  0 <= round_scale n P <= P /\ 9 * Z.abs (round_scale n P * p10 n - P) <= 5 * (p10 n - 1).
Proof.
  induction n; intros P R; cbn [round_scale].
  - rewrite p10_0. lia.
  - destruct (round_step_bound P R) as [A B]. set (f := if 5 <=? Z.rem P 10 then _ else _) in *.
    destruct (IHn f ltac:(lia)) as [C D]. split; [lia|]. rewrite p10_S.
    set (x := round_scale n f) in *. pose proof (p10_pos n).
    replace (x * (10 * p10 n) - P) with (10 * (x * p10 n - f) + (f * 10 - P)) by ring. lia.
Qed.

Lemma round_scale_exact n P : 0 <= P < 2 ^ 63 -> (p10 n | P) -> round_scale n P * p10 n = P.
Proof.
  intros R [k E]. destruct (round_scale_bound n P R) as [_ B]. pose proof (p10_pos n). set (x := round_scale n P) in *.
  subst P. replace (x * p10 n - k * p10 n) with ((x - k) * p10 n) in B by ring. rewrite Z.abs_mul, (Z.abs_eq (p10 n)) in B by lia.
  assert (Z.abs (x - k) = 0) by nia. f_equal. lia.
Qed.

(** the sign of a product *)
Definition sg (d o : decimal) : Z := if Bool.eqb (0 <=? dval d) (0 <=? dval o) then 1 else -1.
Lemma sg_mul d o : dval d * dval o = sg d o * (Z.abs (dval d) * Z.abs (dval o)).
Proof. unfold sg. destruct (Z.leb_spec 0 (dval d)), (Z.leb_spec 0 (dval o)); cbn [Bool.eqb]; nia. Qed.
Lemma sg_abs d o : Z.abs (sg d o) = 1.
Proof. unfold sg. destruct (Bool.eqb _ _); reflexivity. Qed.
Lemma sg_apply d o r : 0 <= r < 2 ^ 63 -> (if Bool.eqb (0 <=? dval d) (0 <=? dval o) then r else neg64 r) = sg d o * r.
Proof. intros. unfold sg. destruct (Bool.eqb _ _); [|rewrite neg64_id]; lia. Qed.

Lemma value_mult d e : (value d * value e)%Q = Qmake (dval d * dval e) (Z.to_pos (p10 (dscale d)) * Z.to_pos (p10 (dscale e))).
Proof. reflexivity. Qed.

(** the representation found denotes the product *)
Lemma prod_value d o v s dn P : P = Z.abs (dval d) * Z.abs (dval o) -> (s <= dscale d + dscale o)%nat ->
  v * p10 (dscale d + dscale o - s) = P -> (value (mkD (sg d o * v) s dn) == value d * value o)%Q.
Proof.
  intros EP L E. rewrite value_mult. unfold Qeq, value. cbn [Qnum Qden dval dscale].
  rewrite Pos2Z.inj_mul, !pos_p10, <- p10_add, sg_mul, <- EP, <- E.
  rewrite (p10_sub (dscale d + dscale o) s L). ring.
Qed.


(** the final part of Mul, lines 689-726 *)
Definition mul_finish (d o : decimal) (rval : Z) (rscale : nat) (round19 : bool) : option err * decimal :=
  let step2 : option Z :=
    if round19 && (maxValue <? rval) then
      if (rscale =? 0)%nat then None
      else let q := Z.quot rval 10 in
           if 5 <=? Z.rem rval 10 then (if maxValue <? q + 1 then None else Some (q + 1)) else Some q
    else Some rval in
  match step2 with
  | None => (Some (mul_err d o), mkD 0 0 false)
  | Some rval =>
      (None, apply_norm (mkD (if Bool.eqb (0 <=? dval d) (0 <=? dval o) then round_scale (rscale - 18) rval else neg64 (round_scale (rscale - 18) rval))
                             (Nat.min rscale 18) (denorm d)))
  end.

Lemma mul_small d o : valid d -> valid o -> prod d o < 2 ^ 63 ->
  dec_mul d o = mul_finish d o (prod d o) (dscale d + dscale o) (negb (dval d =? 0)).
Proof.
  intros V1 V2 R. unfold dec_mul. rewrite !abs64_abs' by (apply valid_int64; auto). fold (prod d o).
  assert (N : 0 <= prod d o) by (unfold prod; nia). rewrite wrap64_id by (unfold int64; lia).
  destruct (Z.eqb_spec (Z.abs (dval d)) 0) as [E|E]; destruct (Z.eqb_spec (dval d) 0) as [E'|E']; try lia; auto.
  assert (Q : Z.quot (prod d o) (Z.abs (dval d)) = Z.abs (dval o)).
  { unfold prod. rewrite Z.mul_comm. apply Z.quot_mul. lia. }
  rewrite Q, Z.eqb_refl. reflexivity.
Qed.

Lemma mul_big d o : valid d -> valid o -> 2 ^ 63 <= prod d o ->
  dec_mul d o =
    if (dscale d + dscale o =? 0)%nat then (Some (mul_err d o), mkD 0 0 false)
    else let '(rdig, rscale) := strip_zeros (rev (dec (prod d o))) (dscale d + dscale o) in
         if (18 <? Z.of_nat (length rdig) - Z.of_nat rscale) then (Some (mul_err d o), mkD 0 0 false)
         else let '(rdig, rscale, carry) := drop_digits rdig rscale 0 in
              if (carry =? 1) && (5 <=? hd 0 rdig) then mul_finish d o (undec (rev rdig) + 1) rscale true
              else mul_finish d o (undec (rev rdig)) rscale false.
Proof.
  intros V1 V2 R. unfold dec_mul. rewrite !abs64_abs' by (apply valid_int64; auto). fold (prod d o).
  assert (D0 : Z.abs (dval d) <> 0). { intro X. unfold prod in R. rewrite X in R. change (2 ^ 63) with 9223372036854775808 in R. lia. }
  destruct (Z.eqb_spec (Z.abs (dval d)) 0) as [E|E]; [contradiction|].
  assert (Q : (Z.quot (wrapS 64 (prod d o)) (Z.abs (dval d)) =? Z.abs (dval o)) = false).
  { apply Z.eqb_neq. intro X. pose proof (Z.quot_rem (wrapS 64 (prod d o)) (Z.abs (dval d)) D0) as QR. rewrite X in QR.
    fold (prod d o) in QR. destruct (wrapS_cong 64 (prod d o) ltac:(lia)) as [k K].
    pose proof (wrapS_in 64 (prod d o) ltac:(lia)) as [_ I]. unfold maxS in I. change (2 ^ (64 - 1)) with 9223372036854775808 in I.
    change (2 ^ 63) with 9223372036854775808 in R. change (2 ^ 64) with 18446744073709551616 in K.
    pose proof (Z.rem_bound_abs (wrapS 64 (prod d o)) (Z.abs (dval d)) D0) as RB. pose proof (valid_bound d V1). lia. }
  rewrite Q. destruct (dscale d + dscale o =? 0)%nat; auto.
  destruct (strip_zeros (rev (dec (prod d o))) (dscale d + dscale o)) as [rdig rscale].
  destruct (18 <? _); auto. destruct (drop_digits rdig rscale 0) as [[rdig' rscale'] carry].
  destruct ((carry =? 1) && (5 <=? hd 0 rdig')); reflexivity.
Qed.

Lemma strip_spec rdig : forall s rd' s', digits_ok rdig -> strip_zeros rdig s = (rd', s') ->
  digits_ok rd' /\ (s' <= s)%nat /\ undec (rev rdig) = undec (rev rd') * p10 (s - s') /\
  length rdig = (length rd' + (s - s'))%nat /\ (s' = 0%nat \/ rd' = [] \/ undec (rev rd') mod 10 <> 0).
Proof.
  induction rdig as [|x r IH]; intros s rd' s' O E; cbn [strip_zeros] in E.
  - injection E as <- <-. rewrite Nat.sub_diag, p10_0. repeat split; auto.
  - assert (ST : (x = 0 /\ exists t, s = S t /\ strip_zeros r t = (rd', s')) \/ (rd' = x :: r /\ s' = s /\ (s = 0%nat \/ x <> 0))).
    { destruct x; [destruct s|destruct s|destruct s]; try (injection E as <- <-; right; repeat split; auto; right; congruence).
      left. split; auto. eauto. }
    inversion O as [|? ? O1 O2]; subst. destruct ST as [[-> [t [-> E']]]|[-> [-> Z0]]].
    + apply IH in E' as [A [B [C [D F]]]]; auto. replace (S t - s')%nat with (S (t - s')) by lia.
      repeat split; auto; [|cbn [length]; lia]. cbn [rev]. rewrite undec_snoc, C, p10_S. ring.
    + rewrite Nat.sub_diag, p10_0. repeat split; auto; try lia. destruct Z0 as [|Z0]; auto. right. right.
      cbn [rev]. rewrite undec_snoc. rewrite Z.add_comm, Z.mul_comm, Z.mod_add, Z.mod_small by lia. auto.
Qed.

Lemma drop_spec rdig : forall s c, digits_ok rdig -> (0 <= c <= 1) ->
  let k := (length rdig - 18)%nat in
  exists rd' c', drop_digits rdig s c = (rd', (s - k)%nat, c') /\ digits_ok rd' /\ length rd' = (length rdig - k)%nat /\
    undec (rev rd') = undec (rev rdig) / p10 k /\ (k = 0%nat -> rd' = rdig /\ c' = c).
Proof.
  induction rdig as [|x r IH]; intros s c O C k; cbn [drop_digits].
  - exists [], c. unfold k. cbn [length Nat.sub]. rewrite Nat.sub_0_r. repeat split; auto.
  - destruct (Nat.ltb_spec 18 (length (x :: r))) as [L|L].
    + inversion O as [|? ? O1 O2]; subst.
      destruct (IH (s - 1)%nat (if 5 <=? x + c then 1 else 0) O2) as [rd' [c' [A [B [D [F G]]]]]].
      { destruct (5 <=? x + c); lia. }
      exists rd', c'. rewrite A. unfold k. cbn [length] in *. 
      replace (s - 1 - (length r - 18))%nat with (s - (S (length r) - 18))%nat by lia.
      repeat split; auto; try lia.
      rewrite F. cbn [rev]. rewrite undec_snoc. replace (S (length r) - 18)%nat with (S (length r - 18)) by lia.
      rewrite p10_S, <- Z.div_div by (pose proof (p10_pos (length r - 18)); lia). f_equal.
      rewrite Z.add_comm, Z.mul_comm, Z.div_add, Z.div_small by lia. reflexivity.
    + exists (x :: r), c. unfold k. replace (length (x :: r) - 18)%nat with 0%nat by lia. rewrite Nat.sub_0_r, p10_0, Z.div_1_r.
      repeat split; auto.
Qed.

Lemma prod_nonneg d o : 0 <= prod d o. Proof. unfold prod. nia. Qed.

Lemma finish_plain d o rval rscale b : 0 <= rval <= maxValue ->
  mul_finish d o rval rscale b = (None, apply_norm (mkD (sg d o * round_scale (rscale - 18) rval) (Nat.min rscale 18) (denorm d))).
Proof.
  unfold mul_finish, maxValue. intros R. destruct (Z.ltb_spec 999999999999999999 rval); [lia|]. rewrite andb_false_r.
  pose proof (round_scale_bound (rscale - 18) rval) as B. change (2 ^ 63) with 9223372036854775808 in B. destruct (B ltac:(lia)) as [B1 _].
  rewrite sg_apply; auto. change (2 ^ 63) with 9223372036854775808. lia.
Qed.

Lemma sg_mag d o r : Z.abs (sg d o * r) = Z.abs r.
Proof. rewrite Z.abs_mul, sg_abs. lia. Qed.

(** a small product: exact up to rounding to 18 decimals *)
Lemma mul_small_spec d o : valid d -> valid o -> prod d o <= maxValue ->
  dec_mul d o = (None, apply_norm (mkD (sg d o * round_scale (dscale d + dscale o - 18) (prod d o)) (Nat.min (dscale d + dscale o) 18) (denorm d))).
Proof.
  intros V1 V2 R. pose proof (prod_nonneg d o). rewrite mul_small; auto. 2:{ change (2 ^ 63) with 9223372036854775808. unfold maxValue in R. lia. }
  apply finish_plain. lia.
Qed.

Lemma representable_prod d o : representable (value d * value o) -> exists v s, Z.abs v <= p10 18 - 1 /\ (s <= 18)%nat /\
  prod d o * p10 s = Z.abs v * p10 (dscale d + dscale o).
Proof.
  intros [v [s [A [B C]]]]. exists v, s. repeat split; auto. rewrite value_mult in C. unfold Qeq in C. cbn [Qnum Qden] in C.
  rewrite Pos2Z.inj_mul, !pos_p10, <- p10_add in C. unfold prod.
  apply (f_equal Z.abs) in C. rewrite !Z.abs_mul in C.
  rewrite (Z.abs_eq (p10 s)), (Z.abs_eq (p10 (dscale d + dscale o))) in C by (pose proof (p10_pos s); pose proof (p10_pos (dscale d + dscale o)); lia). exact C.
Qed.

Lemma mul_result d o v s : Z.abs v <= p10 18 - 1 -> (s <= 18)%nat -> (s <= dscale d + dscale o)%nat -> 
  v * p10 (dscale d + dscale o - s) = prod d o ->
  let r := apply_norm (mkD (sg d o * v) s (denorm d)) in
  (value r == value d * value o)%Q /\ valid r /\ denorm r = denorm d /\ (denorm d = false -> canonical r).
Proof.
  intros A B C E r. assert (V : valid (mkD (sg d o * v) s (denorm d))). { split; cbn [dval dscale]; auto. rewrite sg_mag. auto. }
  pose proof (valid_int64' _ V) as I. unfold r. repeat split.
  - rewrite apply_norm_value by auto. eapply prod_value; eauto.
  - destruct (apply_norm_valid _ V). auto.
  - destruct (apply_norm_valid _ V). auto.
  - rewrite apply_norm_denorm by auto. reflexivity.
  - intros. apply apply_norm_canonical; auto.
Qed.

Lemma mul_exact_small d o : valid d -> valid o -> prod d o <= maxValue -> representable (value d * value o) ->
  exists r, dec_mul d o = (None, r) /\ (value r == value d * value o)%Q /\ valid r /\ denorm r = denorm d /\ (denorm d = false -> canonical r).
Proof.
  intros V1 V2 R RP. rewrite mul_small_spec by auto. eexists. split; [reflexivity|].
  pose proof (prod_nonneg d o) as N. unfold maxValue in R.
  assert (RG : 0 <= prod d o < 2 ^ 63) by (change (2 ^ 63) with 9223372036854775808; lia).
  destruct (round_scale_bound (dscale d + dscale o - 18) _ RG) as [B _].
  apply mul_result; try lia. { rewrite p10_18. lia. }
  set (S := (dscale d + dscale o)%nat) in *.
  replace (S - Nat.min S 18)%nat with (S - 18)%nat by lia. apply round_scale_exact; auto.
  destruct (representable_prod d o RP) as [v [s [A [B' C]]]]. fold S in C.
  destruct (Nat.le_gt_cases S 18) as [L|L]. { replace (S - 18)%nat with 0%nat by lia. exists (prod d o). rewrite p10_0. lia. }
  exists (Z.abs v * p10 (18 - s)). rewrite <- Z.mul_assoc, <- p10_add. pose proof (p10_pos s).
  rewrite (p10_sub S s) in C by lia. replace (18 - s + (S - 18))%nat with (S - s)%nat by lia. nia.
Qed.

Lemma mul_exact_big d o : valid d -> valid o -> 2 ^ 63 <= prod d o -> representable (value d * value o) ->
  exists r, dec_mul d o = (None, r) /\ (value r == value d * value o)%Q /\ valid r /\ denorm r = denorm d /\ (denorm d = false -> canonical r).
Proof.
  intros V1 V2 R RP. destruct (representable_prod d o RP) as [v [s [A [B C]]]].
  rewrite mul_big by auto. set (S := (dscale d + dscale o)%nat) in *. pose proof (prod_nonneg d o) as N.
  change (2 ^ 63) with 9223372036854775808 in R. rewrite p10_18 in A.
  destruct (Nat.eqb_spec S 0) as [E0|E0].
  { exfalso. rewrite E0, p10_0 in C. pose proof (p10_pos s). nia. }
  destruct (strip_zeros (rev (dec (prod d o))) S) as [rd s'] eqn:ST.
  apply strip_spec in ST as [O [Ls [U [Ln CN]]]]. 2:{ apply Forall_rev. apply dec_ok. auto. }
  rewrite rev_involutive, undec_dec in U by auto. rewrite rev_length in Ln.
  set (X := undec (rev rd)) in *.
  assert (XP : 0 < X). { pose proof (p10_pos (S - s')). nia. }
  assert (SS : (s' <= s)%nat).
  { destruct CN as [->|[->|CN]]; [lia|unfold X, undec in XP; cbn in XP; lia|].
    destruct (Nat.le_gt_cases s' s) as [|G]; auto. exfalso. apply CN.
    rewrite U in C. rewrite (p10_sub S s') in C by lia. replace s' with (s + (s' - s))%nat in C at 3 by lia. rewrite p10_add in C.
    pose proof (p10_pos s). pose proof (p10_pos (S - s')).
    assert (X = Z.abs v * p10 (s' - s)). 
    { apply (Z.mul_reg_r _ _ (p10 (S - s') * p10 s)); [nia|]. lia. }
    destruct (s' - s)%nat as [|j] eqn:J; [lia|]. rewrite H1, p10_S. replace (Z.abs v * (10 * p10 j)) with (Z.abs v * p10 j * 10) by ring.
    apply Z.mod_mul. lia. }
  assert (XV : X * p10 (s - s') = Z.abs v).
  { rewrite U in C. rewrite (p10_sub S s') in C by lia. rewrite (p10_sub s s') in C by lia. pose proof (p10_pos s'). pose proof (p10_pos (S - s')).
    apply (Z.mul_reg_r _ _ (p10 (S - s') * p10 s')); [nia|]. lia. }
  assert (XM : X <= 999999999999999999). { pose proof (p10_pos (s - s')). nia. }
  assert (L18 : (length rd <= 18)%nat).
  { destruct (dec_len (prod d o) ltac:(lia)) as [k [K1 K2]]. rewrite K1 in Ln.
    assert (p10 k < p10 (18 + (S - s'))). { rewrite p10_add, p10_18. pose proof (p10_pos (S - s')). nia. }
    apply p10_lt_inv in H. lia. }
  destruct (Z.ltb_spec 18 (Z.of_nat (length rd) - Z.of_nat s')) as [G|_]; [lia|].
  destruct (drop_spec rd s' 0 O ltac:(lia)) as [rd' [c' [D1 [_ [_ [_ D5]]]]]]. replace (length rd - 18)%nat with 0%nat in * by lia.
  destruct (D5 eq_refl) as [-> ->]. rewrite D1. cbn [Z.eqb andb]. fold X. rewrite Nat.sub_0_r.
  rewrite finish_plain by (unfold maxValue; lia). replace (s' - 18)%nat with 0%nat by lia. cbn [round_scale]. rewrite Nat.min_l by lia.
  eexists. split; [reflexivity|]. apply mul_result; auto; try lia. rewrite p10_18. lia.
Qed.

Lemma mul_overflow d o : valid d -> valid o -> p10 18 * p10 (dscale d + dscale o) <= prod d o ->
  dec_mul d o = (Some (mul_err d o), mkD 0 0 false).
Proof.
  intros V1 V2 R. set (S := (dscale d + dscale o)%nat) in *.
  destruct (Nat.eq_dec S 0) as [E0|E0].
  - rewrite E0, p10_0, p10_18 in R.
    destruct (Z.lt_ge_cases (prod d o) (2 ^ 63)).
    + rewrite mul_small by auto. unfold mul_finish. fold S. rewrite E0.
      assert (D0 : dval d <> 0). { intro X. unfold prod in R. rewrite X in R. lia. }
      destruct (Z.eqb_spec (dval d) 0); [contradiction|]. unfold maxValue. destruct (Z.ltb_spec 999999999999999999 (prod d o)); [|lia]. reflexivity.
    + rewrite mul_big by auto. fold S. rewrite E0. reflexivity.
  - assert (10 <= p10 S). { destruct S as [|m]; [lia|]. rewrite p10_S. pose proof (p10_pos m). lia. }
    assert (BIG : 2 ^ 63 <= prod d o). { change (2 ^ 63) with 9223372036854775808. rewrite p10_18 in R. lia. }
    rewrite mul_big by auto. fold S. destruct (Nat.eqb_spec S 0); [contradiction|].
    destruct (strip_zeros (rev (dec (prod d o))) S) as [rd s'] eqn:ST. pose proof (prod_nonneg d o) as N.
    apply strip_spec in ST as [O [Ls [U [Ln CN]]]]. 2:{ apply Forall_rev. apply dec_ok. auto. }
    rewrite rev_length in Ln. destruct (Z.ltb_spec 18 (Z.of_nat (length rd) - Z.of_nat s')) as [G|G]; auto. exfalso.
    pose proof (dec_lt_len (prod d o) N) as LT. rewrite Ln in LT.
    assert (p10 (length rd + (S - s')) <= p10 (18 + S)) by (apply p10_mono; lia). rewrite p10_add in H0. rewrite !p10_add in *. lia.
Qed.

(** 19 digits that fit an int64: one digit is rounded away but the scale stays *)
Lemma mul_19_digits d o : valid d -> valid o -> p10 18 <= prod d o < 2 ^ 63 -> (1 <= dscale d + dscale o <= 18)%nat ->
  dec_mul d o = (None, apply_norm (mkD (sg d o * ((prod d o + 5) / 10)) (dscale d + dscale o) (denorm d))).
Proof.
  intros V1 V2 R S. rewrite mul_small by (auto; lia). unfold mul_finish, maxValue. rewrite p10_18 in R.
  assert (D0 : dval d <> 0). { intro X. unfold prod in R. rewrite X in R. lia. }
  destruct (Z.eqb_spec (dval d) 0); [contradiction|]. destruct (Z.ltb_spec 999999999999999999 (prod d o)); [|lia].
  destruct (Nat.eqb_spec (dscale d + dscale o) 0); [lia|]. cbn [negb andb].
  change (2 ^ 63) with 9223372036854775808 in *.
  pose proof (Z.quot_rem (prod d o) 10 ltac:(lia)) as E. pose proof (Z.rem_bound_pos (prod d o) 10 ltac:(lia) ltac:(lia)) as B.
  set (q := Z.quot (prod d o) 10) in *. set (m := Z.rem (prod d o) 10) in *.
  replace (dscale d + dscale o - 18)%nat with 0%nat by lia. cbn [round_scale]. rewrite Nat.min_l by lia.
  assert (DV : (prod d o + 5) / 10 = if 5 <=? m then q + 1 else q).
  { symmetry. destruct (Z.leb_spec 5 m).
    - apply (Z.div_unique _ _ _ (m - 5)); lia.
    - apply (Z.div_unique _ _ _ (m + 5)); lia. }
  rewrite DV. destruct (Z.leb_spec 5 m).
  - destruct (Z.ltb_spec 999999999999999999 (q + 1)); [lia|]. rewrite sg_apply; auto. change (2 ^ 63) with 9223372036854775808. lia.
  - rewrite sg_apply; auto. change (2 ^ 63) with 9223372036854775808. lia.
Qed.

(** more than 64 bits, not representable: 18 digits are kept *)
Lemma mul_big_round d o : valid d -> valid o -> 2 ^ 63 <= prod d o ->
  prod d o < p10 18 * p10 (dscale d + dscale o) -> p10 (dscale d + dscale o) <= 10 * prod d o ->
  ~ representable (value d * value o) ->
  exists k, (k <= dscale d + dscale o)%nat /\ p10 17 <= prod d o / p10 k < p10 18 /\ (dscale d + dscale o - k <= 18)%nat /\
    (prod d o / p10 k < p10 18 - 1 ->
     exists v, prod d o / p10 k <= v <= prod d o / p10 k + 1 /\ 
       dec_mul d o = (None, apply_norm (mkD (sg d o * v) (dscale d + dscale o - k) (denorm d)))).
Proof.
  intros V1 V2 R OV SM NR. pose proof (prod_nonneg d o) as N.
  rewrite mul_big by auto. set (S := (dscale d + dscale o)%nat) in *. 
  assert (R' := R). change (2 ^ 63) with 9223372036854775808 in R'.
  destruct (Nat.eqb_spec S 0) as [E0|E0]. { rewrite E0, p10_0, p10_18 in OV. lia. }
  destruct (strip_zeros (rev (dec (prod d o))) S) as [rd s'] eqn:ST.
  apply strip_spec in ST as [O [Ls [U [Ln CN]]]]. 2:{ apply Forall_rev. apply dec_ok. auto. }
  rewrite rev_involutive, undec_dec in U by auto. rewrite rev_length in Ln.
  set (X := undec (rev rd)) in *.
  assert (XP : 0 < X). { pose proof (p10_pos (S - s')). nia. }
  destruct (dec_len (prod d o) ltac:(lia)) as [l [K1 K2]]. rewrite K1 in Ln.
  (* scale after stripping and number of digits *)
  assert (LS : (l < 18 + S)%nat). { apply p10_lt_inv. rewrite p10_add. lia. }
  assert (SL : (S <= Datatypes.S l)%nat).
  { destruct (Nat.le_gt_cases S (Datatypes.S l)) as [|G]; auto. exfalso.
    assert (p10 (2 + l) <= p10 S) by (apply p10_mono; lia). rewrite p10_add in H. change (p10 2) with 100 in H. rewrite p10_S in K2. lia. }
  assert (X19 : (18 < length rd)%nat).
  { destruct (Nat.le_gt_cases (length rd) 18) as [L|]; auto. exfalso. apply NR.
    pose proof (undec_bounds (rev rd) ltac:(apply Forall_rev; auto)) as UB. rewrite rev_length in UB. fold X in UB.
    pose proof (p10_mono _ _ L).
    exists (sg d o * X), s'. repeat split. { rewrite sg_mag. lia. } { lia. }
    assert (PV := prod_value d o X s' false (prod d o) eq_refl Ls (eq_sym U)). symmetry. exact PV. }
  destruct (Z.ltb_spec 18 (Z.of_nat (length rd) - Z.of_nat s')) as [G|G]; [lia|].
  destruct (drop_spec rd s' 0 O ltac:(lia)) as [rd' [c' [D1 [D2 [D3 [D4 D5]]]]]]. rewrite D1. fold X in D4.
  set (j := (length rd - 18)%nat) in *.
  assert (PK : prod d o / p10 (j + (S - s')) = X / p10 j).
  { rewrite U, p10_add, Z.div_mul_cancel_r; auto; pose proof (p10_pos (S - s')); pose proof (p10_pos j); lia. }
  exists (j + (S - s'))%nat. rewrite PK.
  assert (B18 : p10 17 <= X / p10 j < p10 18).
  { rewrite <- PK. pose proof (p10_pos (j + (S - s'))). split.
    - apply Z.div_le_lower_bound; auto. rewrite <- p10_add. replace (j + (S - s') + 17)%nat with l by lia. lia.
    - apply Z.div_lt_upper_bound; auto. rewrite <- p10_add. replace (j + (S - s') + 18)%nat with (Datatypes.S l) by lia. lia. }
  split; [lia|]. split; [auto|]. split; [lia|]. intros NN. rewrite D4.
  replace (S - (j + (S - s')))%nat with (s' - j)%nat by lia.
  assert (P18 : 0 <= X / p10 j) by (change (p10 17) with 100000000000000000 in B18; lia). rewrite p10_18 in *.
  destruct ((c' =? 1) && (5 <=? hd 0 rd')).
  - exists (X / p10 j + 1). split; [lia|]. rewrite finish_plain by (unfold maxValue; lia).
    replace (s' - j - 18)%nat with 0%nat by lia. cbn [round_scale]. rewrite Nat.min_l by lia. reflexivity.
  - exists (X / p10 j). split; [lia|]. rewrite finish_plain by (unfold maxValue; lia).
    replace (s' - j - 18)%nat with 0%nat by lia. cbn [round_scale]. rewrite Nat.min_l by lia. reflexivity.
Qed.
