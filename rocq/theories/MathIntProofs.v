From Coq Require Import ZifyBool.
From Verif Require Import Base GoInt Conv ConvSpec ConvProofs MathInt MathIntSpec.
Open Scope Z_scope.

Ltac mi :=
  unfold checked, in_type, cast, wrapS, wrapU, minS, maxS, maxU, min_of in *;
  cbn [num_bits is_signed fst snd] in *; pows;
  repeat match goal with
  | |- context [if ?b then _ else _] => destruct b eqn:?
  end; cbn [fst snd] in *; try discriminate; repeat split; intros; try reflexivity; try discriminate;
  try (exfalso; Z.div_mod_to_equations; lia); try (f_equal; Z.div_mod_to_equations; lia).

Lemma add_int_checked k a b : is_signed k = true -> in_type k a -> in_type k b -> checked k (a + b) (add_int k a b).
Proof. intros Hk Ha Hb. destruct k; try discriminate; unfold add_int; mi. Qed.

Lemma add_uint_checked k a b : is_signed k = false -> in_type k a -> in_type k b -> checked k (a + b) (add_uint k a b).
Proof. intros Hk Ha Hb. destruct k; try discriminate; unfold add_uint; mi. Qed.

Lemma sub_uint_checked k a b : is_signed k = false -> in_type k a -> in_type k b -> checked k (a - b) (sub_uint k a b).
Proof. intros Hk Ha Hb. destruct k; try discriminate; unfold sub_uint; mi. Qed.

Lemma sub_int_checked k a b : is_signed k = true -> in_type k a -> in_type k b -> b <> min_of k ->
  checked k (a - b) (sub_int k a b).
Proof. intros Hk Ha Hb Hm. destruct k; try discriminate; unfold sub_int, add_int; mi. Qed.

Lemma sub_int_min k a : is_signed k = true -> in_type k a ->
  sub_int k a (min_of k) =
  if a <? 0 then (Some UnderflowErr, a - min_of k) else (None, a + min_of k).
Proof. intros Hk Ha. destruct k; try discriminate; unfold sub_int, add_int; mi. Qed.

Lemma mul_checked k a b : checked k (a * b) (mul k a b) /\ (~ in_type k (a * b) -> snd (mul k a b) = b).
Proof.
  unfold mul, checked. destruct (from_big_exact k (a * b) b) as [X1 X2].
  destruct (to_int_from_big k (a * b) b) as [[e|] v] eqn:E; cbn [fst snd] in *.
  - split; [|intros N; apply X2; auto].
    split; [intros I; specialize (X1 I); discriminate|].
    split; intros N S; destruct (Z.leb_spec 0 (a * b)); try lia; reflexivity.
  - split; [|intros N; destruct (X2 N); congruence].
    split; [auto|]. split; intros N S; destruct (X2 N); congruence.
Qed.

Lemma land1 z : Z.land z 1 = z mod 2.
Proof. change 1 with (Z.ones 1). rewrite Z.land_ones by lia. reflexivity. Qed.

(** truncated division, as a quotient/remainder of absolute values with the right signs *)
Lemma quot_facts n d : d <> 0 ->
  n = d * Z.quot n d + Z.rem n d /\ Z.abs (Z.rem n d) < Z.abs d /\
  (0 <= n -> 0 <= Z.rem n d) /\ (n <= 0 -> Z.rem n d <= 0).
Proof.
  intros Hd. split; [apply Z.quot_rem'|]. split; [apply Z.rem_bound_abs; auto|].
  split; intros; [apply Z.rem_nonneg|apply Z.rem_nonpos]; auto.
Qed.

Lemma quot_sign n d : d <> 0 -> (0 <= n * d -> 0 <= Z.quot n d) /\ (n * d <= 0 -> Z.quot n d <= 0).
Proof.
  intros Hd. destruct (quot_facts n d Hd) as (E & A & P1 & P2). split; intros.
  - destruct (Z_le_gt_dec 0 (Z.quot n d)); auto. exfalso.
    destruct (Z_lt_ge_dec 0 d).
    + assert (0 <= n) by nia. specialize (P1 H0). nia.
    + assert (n <= 0) by nia. specialize (P2 H0). nia.
  - destruct (Z_le_gt_dec (Z.quot n d) 0); auto. exfalso.
    destruct (Z_lt_ge_dec 0 d).
    + assert (n <= 0) by nia. specialize (P2 H0). nia.
    + assert (0 <= n) by nia. specialize (P1 H0). nia.
Qed.

(** The rounding rule on mathematical integers: what divSInt, divUInt and the big.Int entry compute. *)
Definition rq (n d : Z) : Z :=
  let q := Z.quot n d in
  if Z.abs d <=? 2 * Z.abs (Z.rem n d) then (if 0 <=? q then q + 1 else q - 1) else q.

Lemma half_test d r h : 0 < d -> h = Z.quot d 2 ->
  (((d mod 2 =? 0) && (h <=? r)) || ((d mod 2 =? 1) && (h <? r)))%bool = (d <=? 2 * r).
Proof.
  intros Hd ->. rewrite Z.quot_div_nonneg by lia.
  destruct (d <=? 2 * r) eqn:E; Z.div_mod_to_equations; lia.
Qed.


Lemma abs_small_quot n d : d <> 0 -> Z.abs n < Z.abs d -> Z.quot n d = 0 /\ Z.rem n d = n.
Proof.
  intros Hd H. destruct (quot_facts n d Hd) as (E & A & P1 & P2).
  assert (Z.quot n d = 0).
  { destruct (quot_sign n d Hd) as [Q1 Q2].
    destruct (Z_le_gt_dec 0 n); destruct (Z_le_gt_dec 0 d); nia. }
  split; auto. rewrite H0 in E. lia.
Qed.

Lemma rq_rounds n d : d <> 0 -> ~ bad_div n d -> rounds_to n d (rq n d).
Proof.
  intros Hd NB. destruct (quot_facts n d Hd) as (E & A & P1 & P2). destruct (quot_sign n d Hd) as [Q1 Q2].
  unfold rq, rounds_to.
  assert (HQ : n * d < 0 -> Z.quot n d = 0 -> 2 * Z.abs (Z.rem n d) < Z.abs d).
  { intros Hs Hq. destruct (Z_lt_ge_dec (2 * Z.abs (Z.rem n d)) (Z.abs d)); auto. exfalso. apply NB.
    rewrite Hq in E. assert (n = Z.rem n d) by lia. unfold bad_div. rewrite H. rewrite <- H. split; [auto|]. split; [|lia].
    rewrite H. exact A. }
  destruct (Z.leb_spec (Z.abs d) (2 * Z.abs (Z.rem n d))).
  - destruct (Z.leb_spec 0 (Z.quot n d)) as [Hq|Hq].
    + assert (Hs : 0 <= n * d).
      { destruct (Z_le_gt_dec 0 (n * d)); auto. assert (Z.quot n d = 0) by lia. specialize (HQ ltac:(lia) H0). lia. }
      set (q := Z.quot n d) in *. set (r := Z.rem n d) in *.
      replace (n - (q + 1) * d) with (r - d) by lia.
      destruct (Z_lt_ge_dec 0 d).
      * assert (0 <= n) by nia. specialize (P1 H0).
        assert (0 <= q * d) by nia. split; [lia|]. intros. lia.
      * assert (n <= 0) by nia. specialize (P2 H0).
        assert (q * d <= 0) by nia. split; [lia|]. intros. lia.
    + set (q := Z.quot n d) in *. set (r := Z.rem n d) in *.
      replace (n - (q - 1) * d) with (r + d) by lia.
      assert (Hs : n * d <= 0).
      { destruct (Z_le_gt_dec (n * d) 0); auto. assert (0 <= q) by (apply Q1; lia). lia. }
      destruct (Z_lt_ge_dec 0 d).
      * assert (n <= 0) by nia. specialize (P2 H0).
        assert (q * d <= 0) by nia. split; [lia|]. intros. lia.
      * assert (0 <= n) by nia. specialize (P1 H0).
        assert (0 <= q * d) by nia. split; [lia|]. intros. lia.
  - replace (n - Z.quot n d * d) with (Z.rem n d) by lia. lia.
Qed.

Lemma rq_bad n d : d <> 0 -> bad_div n d -> rq n d = 1.
Proof.
  intros Hd (B1 & B2 & B3). destruct (abs_small_quot n d Hd B2) as [Q R]. unfold rq. rewrite Q, R.
  destruct (Z.leb_spec (Z.abs d) (2 * Z.abs n)); [reflexivity|lia].
Qed.

Lemma consec a b : a - b = 1 \/ a - b = -1 -> a <> 0 -> b <> 0 -> 0 <= a * b.
Proof.
  intros H Ha Hb. destruct (Z_lt_ge_dec 0 a).
  - apply Z.mul_nonneg_nonneg; lia.
  - apply Z.mul_nonpos_nonpos; lia.
Qed.

Lemma rounds_to_unique n d q1 q2 : d <> 0 -> rounds_to n d q1 -> rounds_to n d q2 -> q1 = q2.
Proof.
  intros Hd [A1 B1] [A2 B2].
  destruct (Z.eq_dec q1 q2); auto. exfalso.
  assert (Z.abs d <= Z.abs (q1 * d - q2 * d)).
  { rewrite <- Z.mul_sub_distr_r, Z.abs_mul. nia. }
  assert (2 * Z.abs (n - q1 * d) = Z.abs d) by lia.
  assert (2 * Z.abs (n - q2 * d) = Z.abs d) by lia.
  specialize (B1 H0). specialize (B2 H1).
  assert (Hx : Z.abs (q1 * d - q2 * d) = Z.abs d) by lia.
  rewrite <- Z.mul_sub_distr_r, Z.abs_mul in Hx.
  assert (Hc : q1 - q2 = 1 \/ q1 - q2 = -1) by nia.
  assert (N1 : q1 <> 0) by (intros ->; lia). assert (N2 : q2 <> 0) by (intros ->; lia).
  assert (S : 0 <= (q1 * d) * (q2 * d)).
  { replace ((q1 * d) * (q2 * d)) with ((q1 * q2) * (d * d)) by ring. apply Z.mul_nonneg_nonneg; [|apply Z.square_nonneg].
    apply consec; auto. }
  set (x := q1 * d) in *. set (y := q2 * d) in *. clearbody x y.
  destruct (Z_le_gt_dec 0 x) as [Sx|Sx], (Z_le_gt_dec 0 y) as [Sy|Sy]; try lia.
  - assert (0 < x) by lia. assert (y < 0) by lia. pose proof (Z.mul_pos_neg x y). lia.
  - assert (x < 0) by lia. assert (0 < y) by lia. pose proof (Z.mul_neg_pos x y). lia.
Qed.

Lemma wrap64_id z : - 9223372036854775808 <= z <= 9223372036854775807 -> wrapS 64 z = z.
Proof. intros. apply wrapS_id; [lia|]. unfold inS, minS, maxS. pows. lia. Qed.

Lemma rq_bounds n d : d <> 0 -> Z.abs d <> 1 -> n <> 0 -> 2 * Z.abs (rq n d) <= Z.abs n + 1.
Proof.
  intros Hd H1 Hn0. destruct (quot_facts n d Hd) as (E & A & P1 & P2). unfold rq.
  assert (2 <= Z.abs d) by lia.
  assert (Z.abs n = Z.abs d * Z.abs (Z.quot n d) + Z.abs (Z.rem n d)).
  { destruct (quot_sign n d Hd) as [Q1 Q2]. rewrite <- Z.abs_mul.
    set (q := Z.quot n d) in *. set (r := Z.rem n d) in *.
    destruct (Z_le_gt_dec 0 n).
    - specialize (P1 l). assert (0 <= d * q). { destruct (Z_lt_ge_dec 0 d); nia. } lia.
    - specialize (P2 ltac:(lia)). assert (d * q <= 0). { destruct (Z_lt_ge_dec 0 d); nia. } lia. }
  set (q := Z.quot n d) in *. set (r := Z.rem n d) in *.
  destruct (Z.leb_spec (Z.abs d) (2 * Z.abs r)).
  - destruct (Z.leb_spec 0 q).
    + assert (Z.abs (q + 1) = Z.abs q + 1) by lia. nia.
    + assert (Z.abs (q - 1) = Z.abs q + 1) by lia. nia.
  - nia.
Qed.

Lemma div_sint_rq n d : d <> 0 ->
  - 9223372036854775808 <= n <= 9223372036854775807 -> - 9223372036854775808 <= d <= 9223372036854775807 ->
  div_sint n d = wrapS 64 (rq n d).
Proof.
  intros Hd Hn Hdr. destruct (quot_facts n d Hd) as (E & A & P1 & P2). unfold div_sint. rewrite land1.
  assert (R : (if Z.rem n d <? 0 then wrapS 64 (- Z.rem n d) else Z.rem n d) = Z.abs (Z.rem n d)).
  { destruct (Z.ltb_spec (Z.rem n d) 0); [rewrite wrap64_id by lia|]; lia. }
  assert (Hh : (if Z.quot d 2 <? 0 then wrapS 64 (- Z.quot d 2) else Z.quot d 2) = Z.quot (Z.abs d) 2).
  { destruct (Z_le_gt_dec 0 d).
    - rewrite Z.abs_eq by lia. assert (0 <= Z.quot d 2) by (apply Z.quot_pos; lia).
      destruct (Z.ltb_spec (Z.quot d 2) 0); lia.
    - rewrite Z.abs_neq by lia. rewrite Z.quot_opp_l by lia.
      pose proof (Z.quot_rem' d 2). pose proof (Z.rem_bound_abs d 2 ltac:(lia)).
      destruct (Z.ltb_spec (Z.quot d 2) 0); [rewrite wrap64_id; lia|lia]. }
  rewrite R, Hh. clear R Hh.
  replace (d mod 2) with (Z.abs d mod 2) by (Z.div_mod_to_equations; lia).
  rewrite half_test by (auto; lia).
  unfold rq. destruct (Z.leb_spec (Z.abs d) (2 * Z.abs (Z.rem n d))) as [L|L]; [|reflexivity].
  assert (Hone : Z.abs d <> 1).
  { intros H1. lia. }
  assert (Hn0 : n <> 0). { intros ->. rewrite Z.rem_0_l in L by auto. lia. }
  pose proof (rq_bounds n d Hd Hone Hn0) as B. unfold rq in B.
  destruct (Z.leb_spec (Z.abs d) (2 * Z.abs (Z.rem n d))); [|lia].
  rewrite (wrap64_id (Z.quot n d)); [destruct (0 <=? Z.quot n d); reflexivity|].
  destruct (Z.leb_spec 0 (Z.quot n d)); lia.
Qed.

Lemma cast_wrap64 k z : is_signed k = true -> cast k (wrapS 64 z) = cast k z.
Proof.
  intros. unfold cast. rewrite H. destruct k; try discriminate; cbn [num_bits]; unfold wrapS; pows; Z.div_mod_to_equations; lia.
Qed.

Lemma rq_in_type k n d : is_signed k = true -> in_type k n -> in_type k d -> d <> 0 ->
  ~ (n = min_of k /\ d = -1) -> in_type k (rq n d).
Proof.
  intros Hk Hn Hdd Hd NB.
  destruct (Z.eq_dec (Z.abs d) 1) as [H1|H1].
  - assert (rq n d = n * d).
    { unfold rq. destruct (quot_facts n d Hd) as (E & A & _). assert (Z.rem n d = 0) by lia.
      rewrite H in *. destruct (Z.leb_spec (Z.abs d) (2 * Z.abs 0)); [lia|].
      assert (d = 1 \/ d = -1) as [-> | ->] by lia; lia. }
    rewrite H. unfold in_type, min_of in *. rewrite Hk in *.
    assert (d = 1 \/ d = -1) as [-> | ->] by lia; lia.
  - destruct (Z.eq_dec n 0) as [->|Hn0].
    + assert (rq 0 d = 0).
      { unfold rq. rewrite Z.rem_0_l, Z.quot_0_l by auto. simpl.
        destruct (Z.leb_spec (Z.abs d) 0); [lia|reflexivity]. }
      rewrite H. exact Hn.
    + pose proof (rq_bounds n d Hd H1 Hn0). unfold in_type in *. rewrite Hk in *.
      assert (1 <= 2 ^ (num_bits k - 1)) by (destruct k; vm_compute; discriminate).
      lia.
Qed.

Lemma in_type_64 k n : is_signed k = true -> in_type k n -> - 9223372036854775808 <= n <= 9223372036854775807.
Proof. intros Hk Hn. unfold in_type in Hn. rewrite Hk in Hn. destruct k; try discriminate; cbn [num_bits] in Hn; pows; lia. Qed.

Lemma cast_id k v : in_type k v -> cast k v = v.
Proof.
  unfold in_type, cast. destruct (is_signed k) eqn:S.
  - intros. apply wrapS_id; [destruct k; simpl; lia|]. unfold inS, minS, maxS. lia.
  - intros. apply wrapU_id. unfold inU, maxU. lia.
Qed.

Lemma div_rq k n d q : is_signed k = true -> in_type k n -> in_type k d -> d <> 0 ->
  ~ (n = min_of k /\ d = -1) -> div k n d q = (None, rq n d).
Proof.
  intros Hk Hn Hdd Hd NB. unfold div. destruct (Z.eqb_spec d 0); [lia|]. rewrite Hk. f_equal.
  rewrite div_sint_rq; auto; try (eapply in_type_64; eauto). rewrite cast_wrap64 by auto.
  apply cast_id. apply rq_in_type; auto.
Qed.

Lemma div_signed_ok k n d q : is_signed k = true -> in_type k n -> in_type k d -> d <> 0 ->
  ~ (n = min_of k /\ d = -1) -> ~ bad_div n d ->
  exists q', div k n d q = (None, q') /\ rounds_to n d q'.
Proof.
  intros. exists (rq n d). split; [apply div_rq; auto|]. apply rq_rounds; auto.
Qed.

Lemma div_signed_bad k n d q : is_signed k = true -> in_type k n -> in_type k d -> bad_div n d ->
  div k n d q = (None, 1) /\ rounds_to n d (-1).
Proof.
  intros Hk Hn Hdd B. assert (Hd : d <> 0) by (destruct B; nia).
  assert (Hm : ~ (n = min_of k /\ d = -1)).
  { intros [E1 E2]. destruct B as (B1 & B2 & B3). subst. unfold min_of in *.
    assert (1 <= 2 ^ (num_bits k - 1)) by (destruct k; vm_compute; discriminate). lia. }
  split.
  - rewrite div_rq; auto. f_equal. apply rq_bad; auto.
  - destruct B as (B1 & B2 & B3). unfold rounds_to. destruct (Z_lt_ge_dec 0 d); [assert (n < 0) by nia|assert (0 < n) by nia]; lia.
Qed.

Lemma div_min k q : is_signed k = true -> div k (min_of k) (-1) q = (None, min_of k).
Proof. intros Hk. destruct k; try discriminate; vm_compute; reflexivity. Qed.

Lemma div_unsigned_ok k n d q : is_signed k = false -> in_type k n -> in_type k d -> d <> 0 ->
  exists q', div k n d q = (None, q') /\ rounds_to n d q'.
Proof.
  intros Hk Hn Hdd Hd. exists (rq n d). split.
  - unfold div. destruct (Z.eqb_spec d 0); [lia|]. rewrite Hk. f_equal. unfold div_uint. rewrite land1.
    unfold in_type in *. rewrite Hk in *.
    assert (HR : 0 <= Z.rem n d) by (apply Z.rem_nonneg; lia).
    assert (HQ : 0 <= Z.quot n d) by (apply Z.quot_pos; lia).
    rewrite half_test by (auto; lia).
    assert (EQ : rq n d = if d <=? 2 * Z.rem n d then Z.quot n d + 1 else Z.quot n d).
    { unfold rq. rewrite !Z.abs_eq by lia. destruct (Z.leb_spec 0 (Z.quot n d)); [reflexivity|lia]. }
    assert (HB : 0 <= rq n d <= n).
    { destruct (Z.eq_dec n 0) as [->|]. { rewrite EQ, Z.rem_0_l, Z.quot_0_l by lia.
        destruct (Z.leb_spec d (2 * 0)); lia. }
      destruct (Z.eq_dec d 1) as [->|].
      { rewrite EQ, Z.rem_1_r, Z.quot_1_r. destruct (Z.leb_spec 1 (2 * 0)); lia. }
      pose proof (rq_bounds n d ltac:(lia) ltac:(lia) ltac:(lia)).
      assert (0 <= rq n d) by (rewrite EQ; destruct (d <=? 2 * Z.rem n d); lia). lia. }
    assert (HW : (if d <=? 2 * Z.rem n d then wrapU 64 (Z.quot n d + 1) else Z.quot n d) = rq n d).
    { rewrite EQ in HB |- *. destruct (d <=? 2 * Z.rem n d); auto. apply wrapU_id. unfold inU, maxU.
      assert (2 ^ num_bits k <= 2 ^ 64) by (destruct k; try discriminate; vm_compute; discriminate). lia. }
    rewrite HW. apply cast_id. unfold in_type. rewrite Hk. lia.
  - apply rq_rounds; auto. intros (B1 & _). unfold in_type in *. rewrite Hk in *. nia.
Qed.

Lemma div_zero k n q : div k n 0 q = (Some DivByZeroErr, q).
Proof. reflexivity. Qed.

Lemma div_big_rq n d q : d <> 0 -> div_big n d q = (None, rq n d).
Proof.
  intros Hd. unfold div_big. destruct (Z.eqb_spec d 0); [lia|]. rewrite land1.
  replace (Z.shiftr (Z.abs d) 1) with (Z.quot (Z.abs d) 2).
  2: { rewrite Z.shiftr_div_pow2 by lia. rewrite Z.quot_div_nonneg by lia. reflexivity. }
  rewrite half_test by (auto; lia). unfold rq.
  destruct (Z.leb_spec (Z.abs d) (2 * Z.abs (Z.rem n d))); [|reflexivity].
  f_equal. destruct (Z.quot n d); reflexivity.
Qed.

Lemma abs_ok k v : in_type k v ->
  (is_signed k = true -> v = min_of k -> fst (abs k v) <> None) /\
  (~ (is_signed k = true /\ v = min_of k) -> abs k v = (None, Z.abs v)).
Proof.
  intros Hv. unfold abs. destruct k; cbn [is_signed];
  (split; [intros Hk E; try discriminate; subst v; vm_compute; discriminate|]); intros N;
  unfold in_type, min_of in *; cbn [num_bits is_signed] in *; pows;
  try (destruct (Z.ltb_spec v 0);
    [assert (E : cast KInt (-v) = - v \/ True) by auto; clear E|]); try (f_equal; lia);
  match goal with |- context [cast ?k ?z] => rewrite (cast_id k z) by (unfold in_type; cbn [num_bits is_signed]; pows; lia) end;
  (destruct (Z.ltb_spec (- v) 0); [lia|f_equal; lia]).
Qed.

(** ** Comparators *)
Section Cmp.
  Context {T : Type} (ltb : T -> T -> bool) (O : strict_total ltb).

  Lemma cmp_spec a b :
    (ltb a b = true -> cmp_ordered ltb a b = -1) /\ (a = b -> cmp_ordered ltb a b = 0) /\
    (ltb b a = true -> cmp_ordered ltb a b = 1).
  Proof.
    destruct O as (I & Tr & To). unfold cmp_ordered. repeat split; intros.
    - rewrite H. reflexivity.
    - subst. rewrite I. reflexivity.
    - destruct (ltb a b) eqn:E; [|rewrite H; reflexivity]. pose proof (Tr a b a E H). rewrite I in H0. discriminate.
  Qed.

  Lemma cmp_values a b : cmp_ordered ltb a b = -1 /\ ltb a b = true \/ cmp_ordered ltb a b = 0 /\ a = b \/
    cmp_ordered ltb a b = 1 /\ ltb b a = true.
  Proof.
    destruct (cmp_spec a b) as (A & B & C). destruct O as (I & Tr & To). destruct (To a b) as [H|[H|H]]; auto.
  Qed.

  Lemma cmp_antisym a b : cmp_ordered ltb b a = - cmp_ordered ltb a b.
  Proof.
    destruct (cmp_values a b) as [[E H]|[[E H]|[E H]]]; rewrite E; apply cmp_spec; auto.
  Qed.

  Lemma cmp_trans a b c : cmp_ordered ltb a b <= 0 -> cmp_ordered ltb b c <= 0 -> cmp_ordered ltb a c <= 0.
  Proof.
    intros H1 H2. destruct O as (I & Tr & To).
    destruct (cmp_values a b) as [[E L]|[[E L]|[E L]]]; rewrite E in H1; try lia;
    destruct (cmp_values b c) as [[E2 L2]|[[E2 L2]|[E2 L2]]]; rewrite E2 in H2; try lia; subst.
    - destruct (cmp_spec a c) as (A & _). rewrite A; [lia|eauto].
    - rewrite E. lia.
    - rewrite E2. lia.
    - rewrite E2. lia.
  Qed.

  Lemma min_max_ordered a b :
    (min_ordered ltb a b = a \/ min_ordered ltb a b = b) /\
    ltb a (min_ordered ltb a b) = false /\ ltb b (min_ordered ltb a b) = false /\
    (max_ordered ltb a b = a \/ max_ordered ltb a b = b) /\
    ltb (max_ordered ltb a b) a = false /\ ltb (max_ordered ltb a b) b = false.
  Proof.
    destruct O as (I & Tr & To). unfold min_ordered, max_ordered.
    assert (AS : forall x y, ltb x y = true -> ltb y x = false).
    { intros x y H. destruct (ltb y x) eqn:E; auto. pose proof (Tr x y x H E). rewrite I in H0. discriminate. }
    destruct (ltb b a) eqn:E1, (ltb a b) eqn:E2; repeat split; auto; try (rewrite AS in E2; auto; discriminate).
  Qed.
End Cmp.

Lemma min_max_cmp {T} (cmp : T -> T -> Z) a b :
  min_cmp cmp a b = min_ordered (fun x y => 0 <? cmp y x) a b /\
  max_cmp cmp a b = max_ordered (fun x y => cmp x y <? 0) a b.
Proof. split; reflexivity. Qed.

(** ** Range *)
Section RangeP.
  Context {T : Type} (ltb leb : T -> T -> bool).

  Lemma set_value_accept r v : in_range ltb leb r v ->
    set_value ltb leb r v = (None, mkRange (r_min r) (r_minMode r) (r_max r) (r_maxMode r) v).
  Proof.
    unfold in_range, set_value. destruct (r_minMode r), (r_maxMode r); intros [-> ->]; reflexivity.
  Qed.

  Lemma set_value_reject r v : ~ in_range ltb leb r v -> set_value ltb leb r v = (Some range_err, r).
  Proof.
    unfold in_range, set_value. intros N. 
    destruct (r_minMode r), (r_maxMode r); cbn [negb andb orb];
    match goal with |- context [if ?b then _ else _] => destruct b eqn:E end; auto; exfalso; apply N; clear N;
    rewrite ?Bool.orb_false_r in E; apply andb_prop in E; auto.
  Qed.

  Lemma in_range_dec r v : {in_range ltb leb r v} + {~ in_range ltb leb r v}.
  Proof.
    unfold in_range. destruct (r_minMode r), (r_maxMode r);
    repeat match goal with |- context [?f ?a ?b = true] => destruct (f a b) end; auto; right; intros [? ?]; discriminate.
  Qed.

  Lemma set_values_spec vals : forall r es r',
    set_values ltb leb r vals = (es, r') ->
    r_min r' = r_min r /\ r_minMode r' = r_minMode r /\ r_max r' = r_max r /\ r_maxMode r' = r_maxMode r /\
    last_sat (in_range ltb leb r) (r_val r) vals (r_val r') /\
    (forall i v, nth_error vals i = Some v -> (nth_error es i = Some None <-> in_range ltb leb r v)) /\
    length es = length vals.
  Proof.
    induction vals as [|v vals IH]; intros r es r'; simpl.
    - intros E; inversion E; subst. repeat split; auto; try constructor; destruct i; discriminate.
    - destruct (in_range_dec r v) as [I|N].
      + rewrite set_value_accept by auto.
        destruct (set_values ltb leb _ vals) as [es1 r2] eqn:E1. intros E; inversion E; subst.
        destruct (IH _ _ _ E1) as (A & B & C & D & L & F & Len). cbn in *.
        assert (Q : in_range ltb leb (mkRange (r_min r) (r_minMode r) (r_max r) (r_maxMode r) v) = in_range ltb leb r) by reflexivity.
        repeat (split; [auto; fail|]). split; [apply ls_yes; auto|]. split; [|simpl; lia].
        intros [|i] w Hw; simpl in *; [inversion Hw; subst; tauto|]. apply F; auto.
      + rewrite set_value_reject by auto.
        destruct (set_values ltb leb _ vals) as [es1 r2] eqn:E1. intros E; inversion E; subst.
        destruct (IH _ _ _ E1) as (A & B & C & D & L & F & Len). cbn in *.
        repeat (split; [auto; fail|]). split; [apply ls_no; auto|]. split; [|simpl; lia].
        intros [|i] w Hw; simpl in *; [inversion Hw; subst; split; [discriminate|tauto]|]. apply F; auto.
  Qed.

  Lemma last_sat_in P (d : T) l x : last_sat P d l x -> (exists v, In v l /\ P v) -> P x /\ In x l.
  Proof.
    assert (G : forall d l x, last_sat P d l x -> (x = d /\ (forall v, In v l -> ~ P v)) \/ (P x /\ In x l)).
    { induction 1 as [d'|d' v l' x' Pv L IH|d' v l' x' Pv L IH]; simpl; auto.
      - destruct IH as [[-> N]|[Px I]]; auto.
      - destruct IH as [[-> N]|[Px I]]; auto. left. split; auto. intros w [<-|Hw]; auto. }
    intros H (v & I & Pv). destruct (G _ _ _ H) as [[_ N]|?]; auto. exfalso. eapply N; eauto.
  Qed.
End RangeP.
