(** Division. *)
From Coq Require Import Qabs.
From Verif Require Import Base GoInt Decimal DecimalSpec DecDigits DecimalProofs DecimalProofs2 DecimalProofs3 DecimalProofs4.
Open Scope Z_scope.
Open Scope go_scope.

(** ** Integer divisors *)
Lemma iter_quot10 n : forall v, 0 <= v -> Nat.iter n (fun v => Z.quot v 10) v = v / p10 n.
Proof.
  induction n; intros v H; cbn [Nat.iter nat_rect].
  - rewrite p10_0, Z.div_1_r. reflexivity.
  - unfold Nat.iter in IHn. rewrite IHn by auto. pose proof (p10_pos n). rewrite Z.quot_div_nonneg by (try apply Z.div_pos; lia).
    rewrite Z.div_div by lia. f_equal. rewrite p10_S. ring.
Qed.

Lemma quot_mul_mag v o : 0 < o -> Z.abs (Z.quot v o * o) <= Z.abs v /\ Z.abs (Z.quot v o) <= Z.abs v.
Proof.
  intros H. pose proof (Z.quot_rem v o ltac:(lia)) as E.
  pose proof (Z.rem_bound_abs v o ltac:(lia)) as B. pose proof (Z.rem_sign_mul v o ltac:(lia)) as S.
  destruct (Z.le_ge_cases 0 v).
  - pose proof (Z.quot_pos v o ltac:(lia) ltac:(lia)). pose proof (Z.rem_nonneg v o ltac:(lia) ltac:(lia)). nia.
  - pose proof (Z.rem_nonpos v o ltac:(lia) ltac:(lia)). pose proof (Z.quot_opp_l v o ltac:(lia)) as QO.
    pose proof (Z.quot_pos (- v) o ltac:(lia) ltac:(lia)). nia.
Qed.

Lemma quo_rem_spec d o : valid d -> 1 <= o < 2 ^ 63 ->
  div_int_quo_rem d o =
    if Z.abs (dval d) / p10 (dscale d) <? o then Done (Some ErrDivisorTooLarge, mkD 0 0 false, mkD 0 0 false)
    else Done (None, mkD (Z.quot (dval d) o) (dscale d) (denorm d), apply_norm (mkD (Z.rem (dval d) o) (dscale d) (denorm d))).
Proof.
  intros V O. unfold div_int_quo_rem. destruct (Z.eqb_spec o 0); [lia|].
  rewrite abs64_abs' by (apply valid_int64; auto). rewrite iter_quot10 by lia. rewrite (wrap64_id o) by (unfold int64; lia).
  destruct (_ <? o) eqn:C; auto. destruct (quot_mul_mag (dval d) o ltac:(lia)) as [A B].
  pose proof (valid_int64 d V). rewrite (wrap64_id (Z.quot _ _)) by (unfold int64; lia). cbn [dval].
  rewrite wrap64_id by (unfold int64; lia). unfold dec_sub, negate. cbn [dval dscale denorm]. rewrite neg64_id by lia.
  destruct V as [V1 V2].
  assert (RM : dval d + - (Z.quot (dval d) o * o) = Z.rem (dval d) o).
  { pose proof (Z.quot_rem (dval d) o ltac:(lia)). lia. }
  assert (RA : Z.abs (Z.rem (dval d) o) <= p10 18 - 1).
  { destruct (Z.le_ge_cases 0 (dval d)).
    - pose proof (Z.rem_nonneg (dval d) o ltac:(lia) ltac:(lia)). pose proof (Z.quot_pos (dval d) o ltac:(lia) ltac:(lia)). nia.
    - pose proof (Z.rem_nonpos (dval d) o ltac:(lia) ltac:(lia)). pose proof (Z.quot_opp_l (dval d) o ltac:(lia)) as QO.
      pose proof (Z.quot_pos (- dval d) o ltac:(lia) ltac:(lia)). nia. }
  rewrite (add_aligned d _ d (mkD (- (Z.quot (dval d) o * o)) (dscale d) (denorm d))).
  - cbn [dval]. rewrite RM. destruct (Z.leb_spec (Z.abs (Z.rem (dval d) o)) (p10 18 - 1)); [|lia]. reflexivity.
  - unfold adjust_scale. cbn [dscale]. rewrite Nat.eqb_refl. reflexivity.
  - auto.
  - cbn [dval]. rewrite Z.abs_opp. lia.
Qed.

Definition sumz (f : nat -> Z) (l : list nat) : Z := fold_right (fun i a => f i + a) 0 l.
Lemma total_map f l s dn : (total (map (fun i : nat => mkD (f i) s dn) l) == Qmake (sumz f l) (Z.to_pos (p10 s)))%Q.
Proof.
  induction l. { reflexivity. }
  change (value (mkD (f a) s dn) + total (map (fun i : nat => mkD (f i) s dn) l) == Qmake (f a + sumz f l)%Z (Z.to_pos (p10 s)))%Q.
  rewrite IHl. unfold value, Qplus, Qeq. cbn [Qnum Qden dval dscale]. rewrite Pos2Z.inj_mul, !pos_p10. ring.
Qed.

Lemma sum_parts q R n : forall a, sumz (fun i => q + (if Z.of_nat i <? R then 1 else 0)) (seq a n)
  = q * Z.of_nat n + Z.max 0 (Z.min (Z.of_nat n) (R - Z.of_nat a)).
Proof.
  induction n; intros a; cbn [seq]. { cbn. lia. }
  unfold sumz in *. cbn [fold_right]. rewrite IHn. destruct (Z.ltb_spec (Z.of_nat a) R); lia.
Qed.

Lemma div_add_spec d o : valid d -> 1 <= o < 2 ^ 63 -> o <= Z.abs (dval d) / p10 (dscale d) ->
  let R := dval (apply_norm (mkD (Z.rem (dval d) o) (dscale d) (denorm d))) in
  exists parts, div_int_add d o = Done (None, parts) /\ length parts = Z.to_nat o /\
    parts = map (fun i => mkD (Z.quot (dval d) o + if Z.of_nat i <? R then 1 else 0) (dscale d) (denorm d)) (seq 0 (Z.to_nat o)) /\
    (total parts == Qmake (Z.quot (dval d) o * o + Z.max 0 (Z.min o R)) (Z.to_pos (p10 (dscale d))))%Q.
Proof.
  intros V O L R. unfold div_int_add. rewrite quo_rem_spec by auto. destruct (Z.ltb_spec (Z.abs (dval d) / p10 (dscale d)) o); [lia|].
  cbn [obind]. rewrite (wrap64_id o) by (unfold int64; lia). destruct (Z.ltb_spec o 0); [lia|]. fold R. cbn [dval].
  destruct (quot_mul_mag (dval d) o ltac:(lia)) as [_ B]. pose proof (valid_bound d V).
  assert (E : map (fun i : nat => mkD (wrapS 64 (Z.quot (dval d) o + (if Z.of_nat i <? R then 1 else 0))) (dscale d) (denorm d)) (seq 0 (Z.to_nat o))
     = map (fun i => mkD (Z.quot (dval d) o + if Z.of_nat i <? R then 1 else 0) (dscale d) (denorm d)) (seq 0 (Z.to_nat o))).
  { apply map_ext. intros i. f_equal. apply wrap64_id. unfold int64. change (2 ^ 63) with 9223372036854775808. destruct (_ <? R); lia. }
  rewrite E. eexists. split; [reflexivity|]. rewrite map_length, seq_length. split; auto. split; auto.
  rewrite total_map. rewrite sum_parts. rewrite Z2Nat.id by lia. cbn [Z.of_nat]. rewrite Z.sub_0_r. reflexivity.
Qed.

Lemma value_split d o : 0 < o -> (value (mkD (Z.quot (dval d) o) (dscale d) (denorm d)) * inject_Z o + Qmake (Z.rem (dval d) o) (Z.to_pos (p10 (dscale d))) == value d)%Q.
Proof.
  intros H. unfold value, Qplus, Qmult, Qeq, inject_Z. cbn [Qnum Qden dval dscale]. rewrite !Pos2Z.inj_mul, !pos_p10.
  rewrite (Z.quot_rem (dval d) o) at 3 by lia. ring.
Qed.

(** ** General division *)
Lemma div_scale_ok n : forall q r, 0 <= q -> 0 <= r -> q * p10 n <= maxValue -> r * p10 n <= maxValue ->
  div_scale n q r = Some (q * p10 n, r * p10 n).
Proof.
  unfold maxValue. induction n; intros q r Hq Hr A B; cbn [div_scale].
  - rewrite p10_0. do 2 f_equal; lia.
  - rewrite p10_S in A, B. pose proof (p10_pos n).
    assert (q * 10 <= 999999999999999999) by nia. assert (r * 10 <= 999999999999999999) by nia.
    rewrite !wrap64_id by (unfold int64; change (2 ^ 63) with 9223372036854775808; lia). unfold maxValue.
    destruct (Z.ltb_spec 999999999999999999 (q * 10)); [lia|]. rewrite IHn by lia. rewrite p10_S. do 2 f_equal; ring.
Qed.

Lemma grow_ok f : forall nr ov, 0 < nr < 10 * ov -> ov <= p10 17 -> ov <= nr * p10 f ->
  exists j, grow_rem (S f) nr ov = Done (nr * p10 j) /\ ov <= nr * p10 j < 10 * ov /\ (ov <= nr -> j = 0%nat).
Proof.
  induction f; intros nr ov A B C.
  - rewrite p10_0 in C. exists 0%nat. cbn [grow_rem]. destruct (Z.ltb_spec nr ov); [lia|]. rewrite p10_0, Z.mul_1_r. repeat split; auto; lia.
  - cbn [grow_rem]. destruct (Z.ltb_spec nr ov).
    + change (p10 17) with 100000000000000000 in B.
      rewrite wrap64_id by (unfold int64; change (2 ^ 63) with 9223372036854775808; lia).
      destruct (IHf (nr * 10) ov) as [j [D [E F]]]; try lia. { change (p10 17) with 100000000000000000. lia. } { rewrite p10_S in C. lia. }
      exists (S j). rewrite p10_S. replace (nr * (10 * p10 j)) with (nr * 10 * p10 j) by ring. split; [exact D|]. split; auto. lia.
    + exists 0%nat. rewrite p10_0, Z.mul_1_r. repeat split; auto; lia.
Qed.

Section Main.
Variables (D ov : Z).
Hypothesis HD : 0 < D <= maxValue.
Hypothesis HO : 0 < ov <= p10 17.
Hypothesis GUARD : forall n, ~ (922337203685477581 <= D * p10 n / ov <= maxValue).

Definition div_result (q : Z) (n : nat) : Prop :=
  q * ov = D * p10 n \/
  (p10 17 <= D * p10 n / ov <= maxValue /\ D * p10 n / ov <= q <= D * p10 n / ov + 1 /\
   (ov <= 10 * (D * p10 n mod ov) -> q = (2 * (D * p10 n) + ov) / (2 * ov))).

Lemma div_main_spec fuel : forall inner q r n s0,
  0 <= q -> 0 <= r -> q * ov + r = D * p10 n -> D * p10 n < (maxValue + 1) * ov -> (inner = true -> 0 < r) ->
  (2 * (35 - n) + (if (ov <=? r)%Z then 1 else 0) + 30 <= fuel)%nat ->
  exists q' n', div_main fuel inner q r ov (s0 + n) = Done (Some (q', (s0 + n')%nat)) /\ div_result q' n' /\ 0 <= q' <= maxValue.
Proof.
  induction fuel; intros inner q r n s0 Hq Hr E M I F. { lia. }
  cbn [div_main]. destruct (negb inner && (r =? 0)) eqn:Z0.
  - apply andb_prop in Z0 as [_ Z0]. apply Z.eqb_eq in Z0. subst r. exists q, n. split; auto. split; [left; lia|]. nia.
  - assert (RP : 0 < r). { apply andb_false_iff in Z0 as [Z0|Z0]. { apply I. destruct inner; [reflexivity|discriminate]. } apply Z.eqb_neq in Z0. lia. }
    clear Z0. assert (HO' := HO). change (p10 17) with 100000000000000000 in HO'. assert (HD' := HD). unfold maxValue in HD', M.
    assert (N35 : (n < 35)%nat).
    { apply p10_lt_inv. change (p10 35) with (1000000000000000000 * 100000000000000000). pose proof (p10_pos n). nia. }
    destruct (Z.ltb_spec r ov) as [L|L].
    + assert (QF : D * p10 n / ov = q). { symmetry. apply (Z.div_unique _ _ _ r); lia. }
      assert (RF : D * p10 n mod ov = r). { symmetry. apply (Z.mod_unique _ _ q r); lia. }
      pose proof (GUARD n) as G. rewrite QF in G. unfold maxValue in G.
      assert (QM : q <= 999999999999999999) by nia.
      assert (QS : q < 922337203685477581) by lia.
      rewrite !wrap64_id by (unfold int64; change (2 ^ 63) with 9223372036854775808; lia).
      destruct (Z.ltb_spec maxValue (q * 10)) as [T|T]; unfold maxValue in T.
      * destruct fuel as [|f]; [lia|].
        destruct (grow_ok f (r * 10) ov) as [j [GR [G1 G2]]]; try lia.
        { assert (p10 17 <= p10 f) by (apply p10_mono; lia). nia. }
        rewrite GR. cbn [obind].
        assert (Q1 : 1 <= Z.quot (r * 10 * p10 j) ov <= 9).
        { pose proof (p10_pos j). rewrite Z.quot_div_nonneg by nia. split; [apply Z.div_le_lower_bound; lia|].
          assert (r * 10 * p10 j / ov < 10) by (apply Z.div_lt_upper_bound; lia). lia. }
        cbn [shrink_digit]. destruct (Z.ltb_spec 10 (Z.quot (r * 10 * p10 j) ov)); [lia|]. cbn [obind].
        exists (if 5 <=? Z.quot (r * 10 * p10 j) ov then q + 1 else q), n. split.
        { destruct (5 <=? _); reflexivity. }
        split. 2:{ unfold maxValue. destruct (5 <=? _); lia. }
        right. rewrite QF, RF. unfold maxValue. change (p10 17) with 100000000000000000. repeat split; try lia.
        { destruct (5 <=? _); lia. } { destruct (5 <=? _); lia. }
        intros W. rewrite (G2 ltac:(lia)), p10_0, Z.mul_1_r.
        rewrite (half_div (D * p10 n) q r ov) by lia. rewrite Z.quot_div_nonneg by lia.
        pose proof (Z.div_mod (r * 10) ov ltac:(lia)). pose proof (Z.mod_pos_bound (r * 10) ov ltac:(lia)).
        destruct (Z.leb_spec 5 (r * 10 / ov)), (Z.leb_spec ov (2 * r)); try lia; exfalso; nia.
      * destruct (Z.ltb_spec maxValue (r * 10)) as [T'|T']; unfold maxValue in T'; [lia|].
        replace (S (s0 + n)) with (s0 + S n)%nat by lia. apply IHfuel; try lia.
        { rewrite p10_S. lia. }
        { rewrite p10_S. unfold maxValue. assert (10 * q <= 999999999999999990) by lia. nia. }
        { destruct (Z.leb_spec ov r); [lia|]. destruct (Z.leb_spec ov (r * 10)); lia. }
    + pose proof (Z.quot_rem r ov ltac:(lia)) as QR. pose proof (Z.rem_bound_pos r ov ltac:(lia) ltac:(lia)) as RB.
      assert (0 <= Z.quot r ov) by (apply Z.quot_pos; lia).
      rewrite wrap64_id. 2:{ unfold int64; change (2 ^ 63) with 9223372036854775808. nia. }
      apply IHfuel; try lia; try discriminate. { unfold maxValue. lia. }
      destruct (Z.leb_spec ov r); [|lia]. destruct (Z.leb_spec ov (Z.rem r ov)); lia.
Qed.
End Main.


Lemma div_spec fuel d o : (110 <= fuel)%nat -> valid d -> valid o -> dval o <> 0 ->
  Z.abs (dval o) <= p10 17 -> dividend d o <= maxValue ->
  (forall n, ~ (922337203685477581 <= dividend d o * p10 n / Z.abs (dval o) <= maxValue)) ->
  exists q n, dec_div fuel d o = Done (None, mkD (sg d o * q) (dscale d - dscale o + n) (denorm d)) /\
    div_result (dividend d o) (Z.abs (dval o)) q n /\ 0 <= q <= maxValue.
Proof.
  intros F V1 V2 O0 O17 DM G. unfold dec_div. rewrite !abs64_abs' by (apply valid_int64; auto).
  assert (OP : 0 < Z.abs (dval o)) by lia. set (ov := Z.abs (dval o)) in *. set (dv := Z.abs (dval d)).
  assert (DP : 0 <= dv) by lia.
  destruct (Z.eqb_spec ov 0); [lia|]. set (K := (dscale o - dscale d)%nat).
  unfold dividend in *. fold dv in DM, G |- *. fold K in DM, G |- *. pose proof (p10_pos K).
  pose proof (Z.quot_rem dv ov ltac:(lia)) as QR. pose proof (Z.rem_bound_pos dv ov ltac:(lia) ltac:(lia)) as RB.
  assert (Q0 : 0 <= Z.quot dv ov) by (apply Z.quot_pos; lia).
  assert (QD : Z.quot dv ov <= dv) by nia. assert (RD : Z.rem dv ov <= dv) by nia.
  rewrite div_scale_ok by (auto; nia). cbv beta iota.
  destruct (Z.eq_dec dv 0) as [E0|E0].
  - rewrite E0. rewrite Z.quot_0_l, Z.rem_0_l by lia. cbn [Z.mul]. destruct fuel as [|f]; [lia|]. cbn [div_main negb andb Z.eqb obind].
    exists 0, 0%nat. split; [|split; [left; lia|unfold maxValue; lia]]. rewrite Nat.add_0_r.
    replace (sg d o * 0) with 0 by lia. destruct (Bool.eqb _ _); reflexivity.
  - destruct (div_main_spec (dv * p10 K) ov ltac:(nia) ltac:(lia) G fuel false (Z.quot dv ov * p10 K) (Z.rem dv ov * p10 K) 0 (dscale d - dscale o))
      as [q' [n' [A [B C]]]]; try nia; try discriminate.
    { rewrite p10_0. nia. }
    { rewrite p10_0. unfold maxValue in *. nia. }
    { destruct (_ <=? _); lia. }
    rewrite Nat.add_0_r in A. rewrite A. cbn [obind]. exists q', n'. split; auto.
    rewrite sg_apply; auto. unfold maxValue in C. change (2 ^ 63) with 9223372036854775808. lia.
Qed.

Lemma Qdiv_char x d o : ~ (o == 0)%Q -> (x * o == d)%Q -> (d / o == x)%Q.
Proof. intros N <-. apply Qdiv_mult_l. exact N. Qed.

Lemma value_nonzero o : dval o <> 0 -> ~ (value o == 0)%Q.
Proof. intros N E. unfold Qeq, value in E. cbn [Qnum Qden] in E. lia. Qed.

Lemma sg_cross d o : sg d o * Z.abs (dval d) * dval o = dval d * Z.abs (dval o).
Proof. unfold sg. destruct (Z.leb_spec 0 (dval d)), (Z.leb_spec 0 (dval o)); cbn [Bool.eqb]; rewrite ?(Z.abs_eq (dval d)), ?(Z.abs_eq (dval o)), ?(Z.abs_neq (dval d)), ?(Z.abs_neq (dval o)) by lia; ring. Qed.

Lemma quotient_value d o n : dval o <> 0 ->
  (value d / value o == Qmake (sg d o * (dividend d o * p10 n)) (Z.to_pos (Z.abs (dval o) * p10 (dscale d - dscale o + n))))%Q.
Proof.
  intros N. apply Qdiv_char; [apply value_nonzero; auto|].
  pose proof (p10_pos (dscale d - dscale o + n)). unfold Qeq, Qmult, value. cbn [Qnum Qden].
  rewrite Pos2Z.inj_mul, !pos_p10, Z2Pos.id by nia. unfold dividend.
  transitivity (sg d o * Z.abs (dval d) * dval o * p10 (dscale o - dscale d + n + dscale d)). { rewrite !p10_add. ring. }
  rewrite sg_cross. transitivity (dval d * Z.abs (dval o) * p10 (dscale d - dscale o + n + dscale o)).
  - f_equal. f_equal. lia.
  - rewrite !p10_add. ring.
Qed.

Lemma div_value_exact d o q n : dval o <> 0 -> q * Z.abs (dval o) = dividend d o * p10 n ->
  (value (mkD (sg d o * q) (dscale d - dscale o + n) (denorm d)) == value d / value o)%Q.
Proof.
  intros N E. rewrite (quotient_value d o n N). pose proof (p10_pos (dscale d - dscale o + n)). 
  unfold Qeq, value. cbn [Qnum Qden dval dscale]. rewrite pos_p10, Z2Pos.id by nia. rewrite <- E. ring.
Qed.

Lemma div_value_close d o q n : dval o <> 0 -> Z.abs (q * Z.abs (dval o) - dividend d o * p10 n) <= Z.abs (dval o) ->
  (Qabs (value (mkD (sg d o * q) (dscale d - dscale o + n) (denorm d)) - value d / value o) <= Qmake 1 (Z.to_pos (p10 (dscale d - dscale o + n))))%Q.
Proof.
  intros N E. rewrite (quotient_value d o n N). set (s := (dscale d - dscale o + n)%nat). pose proof (p10_pos s). set (ov := Z.abs (dval o)) in *.
  assert (EQ : (value (mkD (sg d o * q) s (denorm d)) - Qmake (sg d o * (dividend d o * p10 n)) (Z.to_pos (ov * p10 s))
               == Qmake (sg d o * (q * ov - dividend d o * p10 n)) (Z.to_pos (ov * p10 s)))%Q).
  { unfold Qeq, Qminus, Qplus, Qopp, value. cbn [Qnum Qden dval dscale]. rewrite Pos2Z.inj_mul, pos_p10, Z2Pos.id by nia. ring. }
  rewrite EQ. unfold Qle, Qabs. cbn [Qnum Qden]. rewrite Z.abs_mul, sg_abs, pos_p10, Z2Pos.id by nia. nia.
Qed.

(** [div_main] on q = 0, r = 0 inside the inner loop never leaves it *)
Lemma div_main_stuck fuel ov s : 0 < ov -> div_main fuel true 0 0 ov s = OutOfFuel.
Proof.
  intros H. revert s. induction fuel; intros s; auto. cbn [div_main negb andb]. destruct (Z.ltb_spec 0 ov); [|lia].
  change (wrapS 64 (0 * 10)) with 0. unfold maxValue. cbn [Z.ltb Z.compare]. apply IHfuel.
Qed.

Lemma div_close fuel d o : (110 <= fuel)%nat -> valid d -> valid o -> dval o <> 0 -> div_safe d o ->
  exists r, dec_div fuel d o = Done (None, r) /\ Z.abs (dval r) <= p10 18 - 1 /\ denorm r = denorm d /\
    ((value r == value d / value o)%Q \/
     (p10 17 <= Z.abs (dval r) /\ (Qabs (value r - value d / value o) <= Qmake 1 (Z.to_pos (p10 (dscale r))))%Q)).
Proof.
  intros F V1 V2 O0 [A [B C]]. rewrite p10_18 in *.
  destruct (div_spec fuel d o F V1 V2 O0 A) as [q [n [E [R M]]]]; [unfold maxValue; lia|exact C|].
  exists (mkD (sg d o * q) (dscale d - dscale o + n) (denorm d)). split; [exact E|]. cbn [dval dscale denorm].
  unfold maxValue in M. rewrite sg_mag. split; [lia|]. split; [reflexivity|]. destruct R as [R|[R1 [R2 _]]].
  - left. apply div_value_exact; auto.
  - right. split; [lia|]. apply div_value_close; auto.
    assert (0 < Z.abs (dval o)) by lia. pose proof (Z.div_mod (dividend d o * p10 n) (Z.abs (dval o)) ltac:(lia)).
    pose proof (Z.mod_pos_bound (dividend d o * p10 n) (Z.abs (dval o)) ltac:(lia)). nia.
Qed.

Lemma div_hang fuel : dec_div fuel (mkD 864691128455135232 0 false) (mkD 900000000000000000 2 false) = OutOfFuel.
Proof.
  unfold dec_div. cbn [dval dscale denorm]. 
  match goal with |- context [div_scale ?a ?b ?c] => let x := eval vm_compute in (div_scale a b c) in change (div_scale a b c) with x end.
  change (if 0 <=? 900000000000000000 then 900000000000000000 else neg64 900000000000000000) with 900000000000000000.
  cbn [Z.eqb]. cbv beta iota. cbn [Nat.sub].
  match goal with |- context [div_main fuel ?b ?q ?r ?o ?s] => assert (H : div_main fuel b q r o s = OutOfFuel) end.
  { do 80 (destruct fuel as [|fuel]; [vm_compute; reflexivity|]; try (apply div_main_stuck; lia);
      match goal with |- div_main (S fuel) ?b ?q ?r ?o ?s = OutOfFuel =>
        let q' := eval vm_compute in (wrapS 64 (q * 10)) in let r' := eval vm_compute in (wrapS 64 (r * 10)) in
        change (div_main (S fuel) b q r o s) with (div_main fuel true q' r' o (S s)) end). }
  rewrite H. reflexivity.
Qed.

Lemma quo_rem_exact d o : valid d -> 1 <= o < 2 ^ 63 ->
  (Z.abs (dval d) / p10 (dscale d) < o -> div_int_quo_rem d o = Done (Some ErrDivisorTooLarge, mkD 0 0 false, mkD 0 0 false)) /\
  (o <= Z.abs (dval d) / p10 (dscale d) ->
     exists q r, div_int_quo_rem d o = Done (None, q, r) /\ (value q * inject_Z o + value r == value d)%Q /\
       dval q = Z.quot (dval d) o /\ dscale q = dscale d /\ (value r == Qmake (Z.rem (dval d) o) (Z.to_pos (p10 (dscale d))))%Q /\
       (Qabs (value r) < Qmake o (Z.to_pos (p10 (dscale d))))%Q /\ (0 <= value r * value d)%Q).
Proof.
  intros V O. rewrite quo_rem_spec by auto. split.
  - intros L. destruct (Z.ltb_spec (Z.abs (dval d) / p10 (dscale d)) o); [reflexivity|lia].
  - intros L. destruct (Z.ltb_spec (Z.abs (dval d) / p10 (dscale d)) o); [lia|].
    eexists. eexists. split; [reflexivity|]. cbn [dval dscale].
    assert (I : int64 (dval (mkD (Z.rem (dval d) o) (dscale d) (denorm d)))).
    { cbn [dval]. pose proof (Z.rem_bound_abs (dval d) o ltac:(lia)). unfold int64. lia. }
    assert (E : (value (apply_norm (mkD (Z.rem (dval d) o) (dscale d) (denorm d))) == Qmake (Z.rem (dval d) o) (Z.to_pos (p10 (dscale d))))%Q).
    { rewrite apply_norm_value by exact I. reflexivity. }
    split; [rewrite E; apply value_split; lia|]. split; [reflexivity|]. split; [reflexivity|]. split; [exact E|]. rewrite E. split.
    + unfold Qlt, Qabs. cbn [Qnum Qden]. rewrite pos_p10. pose proof (p10_pos (dscale d)). pose proof (Z.rem_bound_abs (dval d) o ltac:(lia)). nia.
    + unfold Qle, Qmult, value. cbn [Qnum Qden]. pose proof (Z.rem_sign_mul (dval d) o ltac:(lia)). lia.
Qed.

Lemma rem_mag v o : 0 < o -> 0 <= v -> 0 <= Z.rem v o < o.
Proof. intros. apply Z.rem_bound_pos; lia. Qed.

Lemma parts_exact d o : valid d -> 1 <= o < 2 ^ 63 -> o <= Z.abs (dval d) / p10 (dscale d) -> 0 <= dval d ->
  denorm d = true \/ dscale d = 0%nat \/ Z.rem (dval d) o = 0 \/ Z.rem (dval d) o mod 10 <> 0 ->
  exists parts, div_int_add d o = Done (None, parts) /\ Z.of_nat (length parts) = o /\ (total parts == value d)%Q /\
    (forall x, In x parts -> dscale x = dscale d /\ (dval x = Z.quot (dval d) o \/ dval x = Z.quot (dval d) o + 1)) /\
    (forall i j x y, (i <= j)%nat -> nth_error parts i = Some x -> nth_error parts j = Some y -> dval y <= dval x).
Proof.
  intros V O L P K. destruct (div_add_spec d o V O L) as [parts [A [B [C D]]]]. pose proof (rem_mag (dval d) o ltac:(lia) P) as RB.
  assert (R : dval (apply_norm (mkD (Z.rem (dval d) o) (dscale d) (denorm d))) = Z.rem (dval d) o).
  { destruct (Z.eq_dec (Z.rem (dval d) o) 0) as [E0|E0]. { rewrite E0. reflexivity. }
    unfold apply_norm. cbn [dval denorm]. destruct (Z.eqb_spec (Z.rem (dval d) o) 0); [contradiction|]. cbn [orb].
    destruct (denorm d) eqn:DN; cbn [negb]; auto. unfold normalize. cbn [dval dscale]. destruct (Z.eqb_spec (Z.rem (dval d) o) 0); [contradiction|].
    destruct K as [K|[K|[K|K]]]; [discriminate|rewrite K; reflexivity|contradiction|].
    destruct (dscale d); auto. cbn [norm_loop]. destruct (Z.ltb_spec (Z.rem (dval d) o) 0); [lia|].
    destruct (Z.eqb_spec (Z.rem (Z.rem (dval d) o) 10) 0) as [X|X]; [|reflexivity]. apply rem_mod10 in X. contradiction. }
  rewrite R in *. exists parts. split; [exact A|]. split; [rewrite B; lia|]. split; [|split].
  - rewrite D. unfold Qeq, value. cbn [Qnum Qden]. f_equal. pose proof (Z.quot_rem (dval d) o ltac:(lia)). lia.
  - intros x IN. rewrite C in IN. apply in_map_iff in IN as [i [<- _]]. cbn [dscale dval]. split; auto. destruct (_ <? _); [right|left]; lia.
  - intros i j x y IJ X Y. rewrite C in X, Y. rewrite nth_error_map in X, Y.
    destruct (nth_error (seq 0 (Z.to_nat o)) i) as [a|] eqn:EA; [|discriminate]. destruct (nth_error (seq 0 (Z.to_nat o)) j) as [b|] eqn:EB; [|discriminate].
    cbn [option_map] in X, Y. injection X as <-. injection Y as <-. cbn [dval].
    assert (a = i). { pose proof (nth_error_nth _ _ 0%nat EA). rewrite seq_nth in H; [lia|]. rewrite <- (seq_length (Z.to_nat o) 0). apply nth_error_Some. congruence. }
    assert (b = j). { pose proof (nth_error_nth _ _ 0%nat EB). rewrite seq_nth in H0; [lia|]. rewrite <- (seq_length (Z.to_nat o) 0). apply nth_error_Some. congruence. }
    subst. destruct (Z.ltb_spec (Z.of_nat i) (Z.rem (dval d) o)), (Z.ltb_spec (Z.of_nat j) (Z.rem (dval d) o)); lia.
Qed.

Lemma parts_wrong d o : valid d -> 1 <= o < 2 ^ 63 -> o <= Z.abs (dval d) / p10 (dscale d) ->
  (0 <= dval d -> denorm d = false -> dscale d <> 0%nat -> Z.rem (dval d) o <> 0 -> Z.rem (dval d) o mod 10 = 0 ->
     exists parts, div_int_add d o = Done (None, parts) /\ (total parts < value d)%Q) /\
  (dval d < 0 -> Z.rem (dval d) o <> 0 -> exists parts, div_int_add d o = Done (None, parts) /\ (value d < total parts)%Q).
Proof.
  intros V O L. destruct (div_add_spec d o V O L) as [parts [A [B [C D]]]].
  pose proof (Z.quot_rem (dval d) o ltac:(lia)) as QR. pose proof (p10_pos (dscale d)) as PP. 
  set (m := mkD (Z.rem (dval d) o) (dscale d) (denorm d)) in *.
  assert (I : int64 (dval m)). { unfold m. cbn [dval]. pose proof (Z.rem_bound_abs (dval d) o ltac:(lia)). unfold int64. lia. }
  split.
  - intros P DN S0 R0 R10. exists parts. split; [exact A|]. rewrite D. pose proof (rem_mag (dval d) o ltac:(lia) P) as RB.
    assert (AN : apply_norm m = normalize m). { unfold apply_norm, m. cbn [denorm]. rewrite DN, orb_true_r. reflexivity. }
    rewrite AN. destruct (normalize_spec m I) as [k [E1 [E2 [_ [E4 _]]]]]. unfold m in E1 at 1. cbn [dval] in E1.
    set (R := dval (normalize m)) in *.
    assert (R < Z.rem (dval d) o).
    { destruct k as [|k].
      - exfalso. rewrite p10_0, Z.mul_1_r in E1. destruct E2 as [E2|E2]; [unfold m in E2; cbn [dval] in E2; contradiction|].
        unfold canonical in E4. fold R in E4. destruct E4 as [E4|E4]; [|congruence]. rewrite E4 in E2. unfold m in E2. cbn [dscale] in E2. lia.
      - rewrite p10_S in E1. pose proof (p10_pos k). nia. }
    unfold Qlt, value. cbn [Qnum Qden]. rewrite pos_p10. apply Z.mul_lt_mono_pos_r; auto. lia.
  - intros P R0. exists parts. split; [exact A|]. rewrite D.
    pose proof (Z.rem_nonpos (dval d) o ltac:(lia) ltac:(lia)).
    assert (dval (apply_norm m) <= 0).
    { unfold apply_norm. destruct (_ || _); [|unfold m; cbn [dval]; lia]. destruct (normalize_spec m I) as [k [E1 _]].
      unfold m in E1 at 1. cbn [dval] in E1. pose proof (p10_pos k). nia. }
    unfold Qlt, value. cbn [Qnum Qden]. rewrite pos_p10. apply Z.mul_lt_mono_pos_r; auto. lia.
Qed.
