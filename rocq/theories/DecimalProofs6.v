(** Products, the remaining cases: small magnitudes and carries out of eighteen nines. *)
From Coq Require Import Qabs.
From Verif Require Import Base GoInt Decimal DecimalSpec DecDigits DecimalProofs DecimalProofs2 DecimalProofs3 DecimalProofs4.
Open Scope Z_scope.
Open Scope go_scope.

(** a product beyond 64 bits, below 10^18: either all its digits are kept, or exactly 18 *)
Lemma mul_big_cases d o : valid d -> valid o -> 2 ^ 63 <= prod d o -> prod d o < p10 18 * p10 (dscale d + dscale o) ->
  let S := (dscale d + dscale o)%nat in
  (exists X s, 0 < X <= maxValue /\ (s <= S)%nat /\ X * p10 (S - s) = prod d o /\ dec_mul d o = mul_finish d o X s false) \/
  (exists k, (k <= S)%nat /\ p10 17 <= prod d o / p10 k < p10 18 /\
     (dec_mul d o = mul_finish d o (prod d o / p10 k) (S - k) false \/ dec_mul d o = mul_finish d o (prod d o / p10 k + 1) (S - k) true)).
Proof.
  intros V1 V2 R OV S. pose proof (prod_nonneg d o) as N.
  rewrite mul_big by auto. fold S. fold S in OV.
  assert (R' := R). change (2 ^ 63) with 9223372036854775808 in R'.
  destruct (Nat.eqb_spec S 0) as [E0|E0]. { rewrite E0, p10_0, p10_18 in OV. lia. }
  destruct (strip_zeros (rev (dec (prod d o))) S) as [rd s'] eqn:ST.
  apply strip_spec in ST as [O [Ls [U [Ln CN]]]]. 2:{ apply Forall_rev. apply dec_ok. auto. }
  rewrite rev_involutive, undec_dec in U by auto. rewrite rev_length in Ln.
  set (X := undec (rev rd)) in *.
  assert (XP : 0 < X). { pose proof (p10_pos (S - s')). nia. }
  destruct (dec_len (prod d o) ltac:(lia)) as [l [K1 K2]]. rewrite K1 in Ln.
  assert (LS : (l < 18 + S)%nat). { apply p10_lt_inv. rewrite p10_add. lia. }
  destruct (Z.ltb_spec 18 (Z.of_nat (length rd) - Z.of_nat s')) as [G|G]; [lia|].
  destruct (drop_spec rd s' 0 O ltac:(lia)) as [rd' [c' [D1 [D2 [D3 [D4 D5]]]]]]. rewrite D1. fold X in D4.
  set (j := (length rd - 18)%nat) in *.
  destruct (Nat.le_gt_cases (length rd) 18) as [L|L].
  - left. assert (J : j = 0%nat) by (unfold j; lia). destruct (D5 J) as [-> ->]. cbn [Z.eqb andb]. rewrite J, Nat.sub_0_r.
    pose proof (undec_bounds (rev rd) ltac:(apply Forall_rev; auto)) as UB. rewrite rev_length in UB. fold X in UB. pose proof (p10_mono _ _ L) as PM. rewrite p10_18 in PM.
    exists X, s'. repeat split; auto. unfold maxValue. lia.
  - right. assert (PK : prod d o / p10 (j + (S - s')) = X / p10 j).
    { rewrite U, p10_add, Z.div_mul_cancel_r; auto; pose proof (p10_pos (S - s')); pose proof (p10_pos j); lia. }
    exists (j + (S - s'))%nat. split; [unfold j; lia|]. split.
    { pose proof (p10_pos (j + (S - s'))). split.
      - apply Z.div_le_lower_bound; auto. rewrite <- p10_add. replace (j + (S - s') + 17)%nat with l by (unfold j; lia). lia.
      - apply Z.div_lt_upper_bound; auto. rewrite <- p10_add. replace (j + (S - s') + 18)%nat with (Datatypes.S l) by (unfold j; lia). lia. }
    replace (S - (j + (S - s')))%nat with (s' - j)%nat by lia. rewrite PK, <- D4.
    destruct ((c' =? 1) && (5 <=? hd 0 rd')); auto.
Qed.

(** a result at scale 18 compared with the product *)
Lemma near_product d o v dn B : (18 <= dscale d + dscale o)%nat -> valid (mkD (sg d o * v) 18 dn) ->
  5 * Z.abs (v * p10 (dscale d + dscale o - 18) - prod d o) <= B * p10 (dscale d + dscale o - 18) ->
  (Qabs (value (apply_norm (mkD (sg d o * v) 18 dn)) - value d * value o) <= Qmake B (Z.to_pos (5 * p10 18)))%Q.
Proof.
  intros L V H. rewrite apply_norm_value by (apply valid_int64'; auto). rewrite value_mult. unfold value. cbn [dval dscale].
  set (S := (dscale d + dscale o)%nat) in *. unfold Qminus, Qplus, Qopp, Qle, Qabs. cbn [Qnum Qden].
  rewrite !Pos2Z.inj_mul, !pos_p10. rewrite Z2Pos.id by (rewrite p10_18; lia). rewrite <- p10_add. fold S.
  rewrite sg_mul. fold (prod d o).
  assert (E : (sg d o * v * p10 S + - (sg d o * prod d o) * p10 18) = sg d o * (v * p10 (S - 18) - prod d o) * p10 18).
  { rewrite (p10_sub S 18) by lia. ring. }
  rewrite E, !Z.abs_mul, sg_abs. pose proof (p10_pos S). pose proof (p10_pos (S - 18)). pose proof (p10_pos 18).
  rewrite (Z.abs_eq (p10 18)) by lia. rewrite (p10_sub S 18) by lia. set (A := Z.abs (v * p10 (S - 18) - prod d o)) in *. nia.
Qed.
Lemma valid_round d o v n dn : 0 <= v <= maxValue -> valid (mkD (sg d o * round_scale n v) 18 dn).
Proof.
  intros R. split; cbn [dval dscale]; [|lia]. rewrite sg_mag. unfold maxValue in R.
  destruct (round_scale_bound n v) as [A _]; [change (2 ^ 63) with 9223372036854775808; lia|]. rewrite p10_18. lia.
Qed.

Lemma mul_tiny d o : valid d -> valid o -> 2 ^ 63 <= prod d o -> 10 * prod d o < p10 (dscale d + dscale o) ->
  (forall k, prod d o / p10 k <> p10 18 - 1) ->
  exists r, dec_mul d o = (None, r) /\ (Qabs (value r - value d * value o) <= Qmake 3 (Z.to_pos (5 * p10 18)))%Q.
Proof.
  intros V1 V2 R SM NN. pose proof (prod_nonneg d o) as N. set (S := (dscale d + dscale o)%nat) in *.
  assert (R' := R). change (2 ^ 63) with 9223372036854775808 in R'.
  assert (OV : prod d o < p10 18 * p10 S). { rewrite p10_18. pose proof (p10_pos S). lia. }
  assert (S19 : (19 < S)%nat). { destruct (Nat.le_gt_cases S 19) as [L|]; auto. apply p10_mono in L. change (p10 19) with 10000000000000000000 in L. lia. }
  pose proof (mul_big_cases d o V1 V2 R OV) as C0. cbv zeta in C0. fold S in C0. destruct C0 as [[X [s [XR [Ls [E M]]]]]|[k [K [B M]]]].
  - rewrite M, finish_plain by lia. eexists. split; [reflexivity|]. destruct (Nat.le_gt_cases s 18) as [L|L].
    + replace (s - 18)%nat with 0%nat by lia. cbn [round_scale]. rewrite Nat.min_l by lia.
      assert (V : valid (mkD (sg d o * X) s (denorm d))). { split; cbn [dval dscale]; auto. rewrite sg_mag, p10_18. unfold maxValue in XR. lia. }
      rewrite apply_norm_value by (apply valid_int64'; auto). rewrite (prod_value d o X s (denorm d) (prod d o) eq_refl Ls E).
      setoid_replace (value d * value o - value d * value o)%Q with 0%Q by ring. rewrite p10_18. discriminate.
    + rewrite Nat.min_r by lia. apply near_product; [lia|apply valid_round; lia|]. fold S.
      destruct (round_scale_bound (s - 18) X) as [_ RB]; [change (2 ^ 63) with 9223372036854775808; unfold maxValue in XR; lia|].
      set (v := round_scale (s - 18) X) in *. replace (S - 18)%nat with ((s - 18) + (S - s))%nat by lia. rewrite p10_add, <- E.
      replace (v * (p10 (s - 18) * p10 (S - s)) - X * p10 (S - s)) with ((v * p10 (s - 18) - X) * p10 (S - s)) by ring.
      pose proof (p10_pos (S - s)). rewrite Z.abs_mul, (Z.abs_eq (p10 (S - s))) by lia. set (A := Z.abs (v * p10 (s - 18) - X)) in *. pose proof (p10_pos (s - 18)). nia.
  - set (F := prod d o / p10 k) in *. pose proof (p10_pos k) as KP. change (p10 17) with 100000000000000000 in B. specialize (NN k). fold F in NN. rewrite p10_18 in B, NN.
    assert (DM : F * p10 k <= prod d o < F * p10 k + p10 k). { unfold F. pose proof (Z.div_mod (prod d o) (p10 k) ltac:(lia)). pose proof (Z.mod_pos_bound (prod d o) (p10 k) ltac:(lia)). lia. }
    assert (K18 : (18 < S - k)%nat).
    { apply p10_lt_inv. assert (p10 k * p10 18 < p10 S) by (rewrite p10_18; nia). rewrite (p10_sub S k) in H by lia. nia. }
    assert (Q : exists v0, (v0 = F \/ v0 = F + 1) /\ dec_mul d o = (None, apply_norm (mkD (sg d o * round_scale (S - k - 18) v0) 18 (denorm d)))).
    { destruct M as [M|M]; rewrite M, finish_plain by (unfold maxValue; lia); rewrite Nat.min_r by lia; eexists; (split; [|reflexivity]); auto. }
    destruct Q as [v0 [W M']]. rewrite M'. eexists. split; [reflexivity|]. apply near_product; [lia|apply valid_round; unfold maxValue; lia|]. fold S.
    destruct (round_scale_bound (S - k - 18) v0) as [_ RB]; [change (2 ^ 63) with 9223372036854775808; lia|].
    set (v := round_scale (S - k - 18) v0) in *. set (n := (S - k - 18)%nat) in *. replace (S - 18)%nat with (n + k)%nat by (unfold n; lia). rewrite p10_add.
    assert (n10 : 10 <= p10 n). { destruct n as [|m] eqn:En; [unfold n in En; lia|]. rewrite p10_S. pose proof (p10_pos m). lia. }
    assert (D : Z.abs (v0 * p10 k - prod d o) <= p10 k) by (destruct W as [-> | ->]; lia).
    replace (v * (p10 n * p10 k) - prod d o) with ((v * p10 n - v0) * p10 k + (v0 * p10 k - prod d o)) by ring.
    pose proof (Z.abs_triangle ((v * p10 n - v0) * p10 k) (v0 * p10 k - prod d o)) as T. rewrite Z.abs_mul, (Z.abs_eq (p10 k)) in T by lia.
    set (A := Z.abs (v * p10 n - v0)) in *. set (T1 := Z.abs ((v * p10 n - v0) * p10 k + (v0 * p10 k - prod d o))) in *. nia.
Qed.

Lemma finish_19 d o rval rscale : p10 18 <= rval < 2 ^ 63 -> (0 < rscale)%nat ->
  mul_finish d o rval rscale true = (None, apply_norm (mkD (sg d o * round_scale (rscale - 18) ((rval + 5) / 10)) (Nat.min rscale 18) (denorm d))).
Proof.
  intros R S. rewrite p10_18 in R. change (2 ^ 63) with 9223372036854775808 in R. unfold mul_finish, maxValue.
  destruct (Z.ltb_spec 999999999999999999 rval); [|lia]. destruct (Nat.eqb_spec rscale 0); [lia|]. cbn [andb].
  pose proof (Z.quot_rem rval 10 ltac:(lia)) as E. pose proof (Z.rem_bound_pos rval 10 ltac:(lia) ltac:(lia)) as B.
  set (q := Z.quot rval 10) in *. set (m := Z.rem rval 10) in *.
  assert (DV : (rval + 5) / 10 = if 5 <=? m then q + 1 else q).
  { symmetry. destruct (Z.leb_spec 5 m); [apply (Z.div_unique _ _ _ (m - 5))|apply (Z.div_unique _ _ _ (m + 5))]; lia. }
  rewrite DV. assert (Q : 0 <= (if 5 <=? m then q + 1 else q) <= 999999999999999999) by (destruct (Z.leb_spec 5 m); lia).
  destruct (round_scale_bound (rscale - 18) _ (ltac:(change (2 ^ 63) with 9223372036854775808; lia) : 0 <= (if 5 <=? m then q + 1 else q) < 2 ^ 63)) as [RB _].
  destruct (Z.leb_spec 5 m).
  - destruct (Z.ltb_spec 999999999999999999 (q + 1)); [lia|]. rewrite sg_apply; auto. change (2 ^ 63) with 9223372036854775808. lia.
  - rewrite sg_apply; auto. change (2 ^ 63) with 9223372036854775808. lia.
Qed.
