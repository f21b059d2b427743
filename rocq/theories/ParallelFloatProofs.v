(** The floating point computations of generateRanges are exact for the numbers of items a slice can have. *)
From Coq Require Import ZArith QArith Qround Qabs Lqa Lia.
From Verif Require Import Base Float FloatSpec FloatProofs FloatProofs2 Parallel ParallelSpec.
Close Scope Q_scope.
Open Scope Z_scope.

(** rounding is monotone with respect to the values of the format *)
Lemma to_fmt_between n d (lo hi : Z * Z) : 0 <= n -> 0 < d -> (fr n d <= digits 2 (2 ^ 53 - 1) 971)%Q ->
  Z.abs (fst lo) < 2 ^ 53 -> -1074 <= snd lo -> Z.abs (fst hi) < 2 ^ 53 -> -1074 <= snd hi ->
  (digits 2 (fst lo) (snd lo) <= fr n d)%Q -> (fr n d <= digits 2 (fst hi) (snd hi))%Q ->
  exists y, denotes (to_fmt f64 false n d) y /\ (digits 2 (fst lo) (snd lo) <= y)%Q /\ (y <= digits 2 (fst hi) (snd hi))%Q.
Proof.
  intros Hn Hd Hb L1 L2 H1 H2 Lo Hi. destruct (to_fmt_nearest f64 (proj1 f64_ok) (proj2 f64_ok) false n d Hn Hd Hb) as (m & e & E & N).
  exists (digits 2 m e). rewrite E. split; [reflexivity|]. split.
  - apply Qnot_lt_le. intros C. pose proof (N _ _ L1 L2) as X. revert X.
    rewrite (Qabs_pos (fr n d - digits 2 m e)) by lra. rewrite (Qabs_pos (fr n d - digits 2 (fst lo) (snd lo))) by lra. lra.
  - apply Qnot_lt_le. intros C. pose proof (N _ _ H1 H2) as X. revert X.
    rewrite (Qabs_neg (fr n d - digits 2 m e)) by lra. rewrite (Qabs_neg (fr n d - digits 2 (fst hi) (snd hi))) by lra. lra.
Qed.

Lemma fvalue_eq x q : denotes x q -> (fvalue x == q)%Q.
Proof. exact (denotes_value x q). Qed.
Lemma f64_of_exact v : Z.abs v < 2 ^ 53 -> denotes (f64_of v) (inject_Z v).
Proof.
  intros H. apply (denotes_eq _ _ _ (fr_1 v)). apply (to_fmt_denotes f64 (proj1 f64_ok) (proj2 f64_ok)); [lia|].
  apply (proj2 (representable_iff f64 (proj1 f64_ok) _)). exists v, 0. split; [exact H|]. split; [cbn; lia|].
  rewrite fr_1. unfold digits. change (Qpower (inject_Z 2) 0) with 1%Q. ring.
Qed.
Lemma f64_of_pos v : 0 <= v -> f64_of v = to_fmt f64 false v 1.
Proof. intros H. unfold f64_of. replace (v <? 0) with false by lia. rewrite Z.abs_eq by lia. reflexivity. Qed.
Lemma digits_Z m e : 0 <= e -> (digits 2 m e == inject_Z (m * 2 ^ e))%Q.
Proof. intros H. unfold digits. rewrite inject_Z_mult, <- (P_Z 2) by lia. reflexivity. Qed.
Lemma in_range v : 0 <= v <= 2 ^ 63 -> (fr v 1 <= digits 2 (2 ^ 53 - 1) 971)%Q.
Proof.
  intros H. rewrite fr_1, digits_Z by lia. rewrite <- Zle_Qle. assert (2 ^ 63 <= 1 * 2 ^ 971) by (rewrite Z.mul_1_l; apply Z.pow_le_mono_r; lia).
  assert (1 * 2 ^ 971 <= (2 ^ 53 - 1) * 2 ^ 971) by (apply Z.mul_le_mono_nonneg_r; [apply Z.pow_nonneg; lia|lia]). lia.
Qed.
Lemma f64_of_big v : 2 ^ 53 <= v <= 2 ^ 63 -> (inject_Z (2 ^ 53) <= fvalue (f64_of v))%Q.
Proof.
  intros H. rewrite f64_of_pos by lia.
  destruct (to_fmt_between v 1 (2 ^ 52, 1) (2 ^ 52, 11)) as (y & D & L & _); try (cbn; lia).
  - apply in_range. lia.
  - rewrite fr_1, digits_Z by (cbn; lia). rewrite <- Zle_Qle. cbn [fst snd]. lia.
  - rewrite fr_1, digits_Z by (cbn; lia). rewrite <- Zle_Qle. cbn [fst snd]. lia.
  - rewrite (fvalue_eq _ _ D). revert L. rewrite digits_Z by (cbn; lia). cbn [fst snd]. intros L. exact L.
Qed.
Lemma f64_of_neg v : - 2 ^ 63 <= v <= 0 -> (fvalue (f64_of v) <= 0)%Q.
Proof.
  intros H. destruct (Z.eq_dec v 0) as [->|N]; [rewrite (fvalue_eq _ _ (f64_of_exact 0 eq_refl)); apply Qle_refl|]. unfold f64_of. replace (v <? 0) with true by lia.
  destruct (to_fmt_nearest f64 (proj1 f64_ok) (proj2 f64_ok) true (Z.abs v) 1 ltac:(lia) ltac:(lia)) as (m & e & E & _); [apply in_range; lia|].
  pose proof (to_fmt_is_float f64 (proj1 f64_ok) (proj2 f64_ok) true (Z.abs v) 1 ltac:(lia) ltac:(lia)) as F. rewrite E in *. destruct F as (F & _).
  rewrite (fvalue_eq (Fin true m e) (digits 2 (- m) e)) by reflexivity. unfold digits. pose proof (P_pos 2 ltac:(lia) e) as P.
  assert (inject_Z (- m) <= 0)%Q by (change 0%Q with (inject_Z 0); rewrite <- Zle_Qle; lia). nra.
Qed.

Lemma uint_of_Z x v : denotes x (inject_Z v) -> uint_of x = Z.to_nat v.
Proof. intros D. unfold uint_of. rewrite (Qfloor_comp _ _ (fvalue_eq _ _ D)), Qfloor_Z. reflexivity. Qed.

Lemma clamp_exact n z : (1 <= n)%nat -> Z.of_nat n < 2 ^ 53 -> - 2 ^ 63 <= z < 2 ^ 63 ->
  clamp n z = Nat.min n (Z.to_nat (Z.max 1 z)).
Proof.
  intros H1 Hn Hz. unfold clamp. set (N := Z.of_nat n) in *.
  pose proof (f64_of_exact N ltac:(lia)) as DN. pose proof (f64_of_exact 1 ltac:(lia)) as D1.
  assert (M : (max64 (f64_of 1) (f64_of z) = f64_of (Z.max 1 z) /\ Z.max 1 z < 2 ^ 53) \/
              (max64 (f64_of 1) (f64_of z) = f64_of z /\ 2 ^ 53 <= z)).
  { unfold max64. destruct (Qle_bool (fvalue (f64_of 1)) (fvalue (f64_of z))) eqn:B.
    - apply Qle_bool_iff in B. destruct (Z.le_gt_cases (2 ^ 53) z) as [G|G]; [right; auto|left]. split; [|lia].
      destruct (Z.le_gt_cases 1 z) as [L|L]; [rewrite Z.max_r by lia; reflexivity|].
      pose proof (f64_of_neg z ltac:(lia)) as X. rewrite (fvalue_eq _ _ D1) in B. change (inject_Z 1) with 1%Q in B. lra.
    - left. destruct (Z.le_gt_cases z 1) as [L|L]; [rewrite Z.max_l by lia; split; [reflexivity|lia]|].
      exfalso. assert (T : Qle_bool (fvalue (f64_of 1)) (fvalue (f64_of z)) = true); [|congruence]. apply Qle_bool_iff.
      rewrite (fvalue_eq _ _ D1). destruct (Z.le_gt_cases (2 ^ 53) z) as [G|G].
      + eapply Qle_trans; [|apply f64_of_big; lia]. rewrite <- Zle_Qle. lia.
      + rewrite (fvalue_eq _ _ (f64_of_exact z ltac:(lia))). rewrite <- Zle_Qle. lia. }
  unfold min64. destruct M as [(-> & G)|(-> & G)].
  - pose proof (f64_of_exact (Z.max 1 z) ltac:(lia)) as DM.
    destruct (Qle_bool (fvalue (f64_of N)) (fvalue (f64_of (Z.max 1 z)))) eqn:B.
    + apply Qle_bool_iff in B. rewrite (fvalue_eq _ _ DN), (fvalue_eq _ _ DM), <- Zle_Qle in B.
      rewrite (uint_of_Z _ _ DN). unfold N in *. rewrite Nat2Z.id. lia.
    + assert (C : ~ N <= Z.max 1 z).
      { intros C. assert (T : Qle_bool (fvalue (f64_of N)) (fvalue (f64_of (Z.max 1 z))) = true); [|congruence]. apply Qle_bool_iff.
        rewrite (fvalue_eq _ _ DN), (fvalue_eq _ _ DM), <- Zle_Qle. exact C. }
      rewrite (uint_of_Z _ _ DM). unfold N in *. lia.
  - replace (Qle_bool (fvalue (f64_of N)) (fvalue (f64_of z))) with true.
    + rewrite (uint_of_Z _ _ DN). unfold N in *. rewrite Nat2Z.id. lia.
    + symmetry. apply Qle_bool_iff. eapply Qle_trans; [|apply f64_of_big; lia]. rewrite (fvalue_eq _ _ DN), <- Zle_Qle. lia.
Qed.

(** *** The square root *)
Lemma fr_inject N D n : 0 < D -> (fr N D == inject_Z n)%Q -> N = n * D.
Proof.
  intros HD H. unfold fr in H. assert (E : (inject_Z N == inject_Z n * inject_Z D)%Q).
  { rewrite <- H. field. apply injZ_nz, HD. }
  rewrite <- inject_Z_mult in E. apply (proj1 (inject_Z_injective _ _)) in E. exact E.
Qed.
Lemma sqrt64_shape n : 1 <= n < 2 ^ 53 -> exists G s st, 0 < G /\ (forall j, 0 <= j <= 64 -> (2 ^ j | G)) /\
  sqrt64 (f64_of n) = to_fmt f64 false (2 * s + st) (2 * G) /\ 0 <= s /\ s * s <= n * (G * G) < (s + 1) * (s + 1) /\
  (st = 0 /\ s * s = n * (G * G) \/ st = 1 /\ s * s <> n * (G * G)).
Proof.
  intros Hn. pose proof (f64_of_exact n ltac:(lia)) as D. rewrite f64_of_pos in * by lia.
  destruct (to_fmt_nearest f64 (proj1 f64_ok) (proj2 f64_ok) false n 1 ltac:(lia) ltac:(lia)) as (m & e & E & _); [apply in_range; lia|].
  rewrite E in *. cbn [denotes] in D. destruct (frac_spec m e) as (HD & Hf & _ & _). unfold sqrt64.
  destruct (frac m e) as [N d]. cbn [fst snd] in *. rewrite <- D in Hf. apply fr_inject in Hf; [|exact HD]. subst N.
  set (G := d * 2 ^ 64). assert (R : n * d * d * 4 ^ 64 = n * (G * G)) by (unfold G; change (4 ^ 64) with (2 ^ 64 * 2 ^ 64); ring).
  rewrite R. assert (HG : 0 < G) by (unfold G; lia).
  pose proof (Z.sqrt_spec (n * (G * G)) ltac:(nia)) as S. pose proof (Z.sqrt_nonneg (n * (G * G))) as S0.
  set (s := Z.sqrt (n * (G * G))) in *. exists G, s, (if s * s =? n * (G * G) then 0 else 1).
  split; [exact HG|]. split.
  - intros j Hj. exists (d * 2 ^ (64 - j)). unfold G. rewrite <- Z.mul_assoc, <- Z.pow_add_r by lia. f_equal. f_equal. lia.
  - split; [reflexivity|]. split; [exact S0|]. split; [unfold Z.succ in S; exact S|]. destruct (Z.eqb_spec (s * s) (n * (G * G))); auto.
Qed.

(** the root of [n] compared with the number a/2^j *)
Lemma digits_opp_pow a j : 0 <= j -> (digits 2 a (- j) == fr a (2 ^ j))%Q.
Proof. intros H. unfold digits, fr. rewrite (P_opp 2), (P_Z 2) by lia. reflexivity. Qed.
Lemma fr_cross a b c d : 0 < b -> 0 < d -> (a * d <= c * b -> (fr a b <= fr c d)%Q).
Proof.
  intros Hb Hd H. apply fr_le; [exact Hb|]. unfold fr. setoid_replace (inject_Z c / inject_Z d * inject_Z b)%Q with (fr (c * b) d).
  - rewrite <- (Qmult_le_r _ _ (inject_Z d)) by (apply injZ_pos, Hd). unfold fr. setoid_replace (inject_Z (c * b) / inject_Z d * inject_Z d)%Q with (inject_Z (c * b)).
    + rewrite <- inject_Z_mult, <- Zle_Qle. exact H.
    + field. apply injZ_nz, Hd.
  - unfold fr. rewrite inject_Z_mult. field. apply injZ_nz, Hd.
Qed.
Lemma fr_cross_lt a b c d : 0 < b -> 0 < d -> (a * d < c * b -> (fr a b < fr c d)%Q).
Proof.
  intros Hb Hd H. apply Qnot_le_lt. intros C. apply fr_le in C; [|exact Hd]. unfold fr in C.
  apply (Qmult_le_compat_r _ _ (inject_Z b)) in C; [|rewrite <- (Zle_Qle 0); lia]. revert C.
  setoid_replace (inject_Z a / inject_Z b * inject_Z d * inject_Z b)%Q with (inject_Z (a * d)).
  - rewrite <- inject_Z_mult, <- Zle_Qle. lia.
  - rewrite inject_Z_mult. field. apply injZ_nz, Hb.
Qed.
Lemma sqrt64_between n a ja b jb : 1 <= n < 2 ^ 53 -> 0 <= a < 2 ^ 53 -> 0 <= b < 2 ^ 53 -> 0 <= ja <= 64 -> 0 <= jb <= 64 ->
  a * a <= n * (2 ^ ja * 2 ^ ja) -> n * (2 ^ jb * 2 ^ jb) <= b * b ->
  exists y, denotes (sqrt64 (f64_of n)) y /\ (fr a (2 ^ ja) <= y)%Q /\ (y <= fr b (2 ^ jb))%Q.
Proof.
  intros Hn Ha Hb Hja Hjb La Lb. destruct (sqrt64_shape n Hn) as (G & s & st & HG & Dv & -> & S0 & S & St).
  destruct (Dv ja Hja) as (ga & Ga). destruct (Dv jb Hjb) as (gb & Gb).
  assert (Pa : 0 < 2 ^ ja) by (apply Z.pow_pos_nonneg; lia). assert (Pb : 0 < 2 ^ jb) by (apply Z.pow_pos_nonneg; lia).
  set (A := 2 ^ ja) in *. set (B := 2 ^ jb) in *.
  assert (ga0 : 0 < ga) by nia. assert (gb0 : 0 < gb) by nia.
  assert (L : a * ga <= s).
  { assert (a * ga * (a * ga) <= n * (G * G)) by (rewrite Ga; nia). nia. }
  assert (U : 2 * s + st <= 2 * (b * gb)).
  { assert (X : n * (G * G) <= b * gb * (b * gb)) by (rewrite Gb; nia). destruct St as [(-> & E)|(-> & E)].
    - assert (s <= b * gb) by nia. lia.
    - destruct (Z.le_gt_cases (s + 1) (b * gb)) as [Y|Y]; [lia|]. exfalso. assert (b * gb <= s) by lia.
      assert (s * s <= b * gb * (b * gb)) by lia. assert (s = b * gb) by nia. apply E. subst s. nia. }
  assert (Lo : (fr a A <= fr (2 * s + st) (2 * G))%Q) by (apply fr_cross; [lia|lia|]; rewrite Ga; nia).
  assert (Hi : (fr (2 * s + st) (2 * G) <= fr b B)%Q) by (apply fr_cross; [lia|lia|]; rewrite Gb; nia).
  destruct (to_fmt_between (2 * s + st) (2 * G) (a, - ja) (b, - jb)) as (y & D & L1 & H1); cbn [fst snd]; try lia.
  - eapply Qle_trans; [exact Hi|]. eapply Qle_trans; [apply (fr_cross b B b 1); [lia|lia|nia]|]. apply in_range. lia.
  - rewrite digits_opp_pow by lia. exact Lo.
  - rewrite digits_opp_pow by lia. exact Hi.
  - exists y. cbn [fst snd] in *. rewrite digits_opp_pow in L1, H1 by lia. auto.
Qed.

Lemma round64_near x y k : denotes x y -> 0 <= k < 2 ^ 53 -> (fr (2 * k - 1) 2 <= y)%Q -> (y < fr (2 * k + 1) 2)%Q ->
  denotes (round64 x) (inject_Z k).
Proof.
  intros D Hk L U. unfold round64. pose proof (fvalue_eq _ _ D) as V.
  assert (E : Qfloor (fvalue x + (1 # 2)) = k).
  { pose proof (Qfloor_le (fvalue x + (1 # 2))) as F1. pose proof (Qlt_floor (fvalue x + (1 # 2))) as F2. 
    set (z := Qfloor (fvalue x + (1 # 2))) in *. clearbody z. rewrite V in F1, F2.
    assert (K1 : (fr (2 * k - 1) 2 == inject_Z k - (1 # 2))%Q) by (unfold fr; replace (2 * k - 1) with (2 * k + -1) by lia; rewrite inject_Z_plus, inject_Z_mult; change (inject_Z 2) with 2%Q; change (inject_Z (-1)) with (-(1))%Q; field).
    assert (K2 : (fr (2 * k + 1) 2 == inject_Z k + (1 # 2))%Q) by (unfold fr; rewrite inject_Z_plus, inject_Z_mult; change (inject_Z 2) with 2%Q; change (inject_Z 1) with 1%Q; field).
    rewrite K1 in L. rewrite K2 in U.
    assert (A1 : (inject_Z z < inject_Z (k + 1))%Q) by (rewrite inject_Z_plus; change (inject_Z 1) with 1%Q; lra).
    assert (A2 : (inject_Z k < inject_Z (z + 1))%Q) by (rewrite inject_Z_plus in *; change (inject_Z 1) with 1%Q in *; lra).
    rewrite <- Zlt_Qlt in A1, A2. lia. }
  rewrite E. apply f64_of_exact. lia.
Qed.

(** the bucket size is the square root rounded to nearest, for up to 2^50 items *)
Lemma bucket_size_exact n : 1 <= Z.of_nat n < 2 ^ 50 ->
  let b := Z.of_nat (bucket_size n) in (2 * b - 1) * (2 * b - 1) <= 4 * Z.of_nat n < (2 * b + 1) * (2 * b + 1).
Proof.
  intros Hn. set (N := Z.of_nat n) in *. cbv zeta.
  (* the rounded root k: 2k = sqrt(4n) or sqrt(4n)+1 *)
  pose proof (Z.sqrt_spec (4 * N) ltac:(lia)) as R. pose proof (Z.sqrt_nonneg (4 * N)) as R0. set (r := Z.sqrt (4 * N)) in *. unfold Z.succ in R.
  set (k := (r + 1) / 2). pose proof (Z.div_mod (r + 1) 2 ltac:(lia)) as DM. pose proof (Z.mod_pos_bound (r + 1) 2 ltac:(lia)) as MB. fold k in DM.
  assert (Kb : 0 <= k < 2 ^ 25 + 1) by (assert (r < 2 ^ 26) by nia; lia).
  assert (K0 : 1 <= k) by (assert (2 <= r) by nia; lia).
  assert (B1 : (2 * k - 1) * (2 * k - 1) <= 4 * N) by nia.
  assert (B2 : 4 * N < (2 * k + 1) * (2 * k + 1)) by nia.
  (* 4N is even and (2k+1)^2 odd: N <= k^2 + k *)
  assert (B3 : N <= k * k + k) by nia.
  assert (X : exists y, denotes (sqrt64 (f64_of N)) y /\ (fr (2 * k - 1) 2 <= y)%Q /\ (y < fr (2 * k + 1) 2)%Q).
  { destruct (Z.lt_ge_cases k (2 ^ 25)) as [K|K].
    - destruct (sqrt64_between N (2 * k - 1) 1 (k * 2 ^ 28 + 2 ^ 27 - 1) 28) as (y & D & L & U); try lia.
      exists y. split; [exact D|]. split; [exact L|]. eapply Qle_lt_trans; [exact U|]. apply fr_cross_lt; lia.
    - assert (k = 2 ^ 25) by lia. destruct (sqrt64_between N (2 * k - 1) 1 k 0) as (y & D & L & U); try lia.
      exists y. split; [exact D|]. split; [exact L|]. eapply Qle_lt_trans; [exact U|]. apply fr_cross_lt; lia. }
  destruct X as (y & D & L & U).
  assert (Dk : denotes (round64 (sqrt64 (f64_of N))) (inject_Z k)) by (apply (round64_near _ y); auto; lia).
  unfold bucket_size. fold N. rewrite (uint_of_Z _ _ Dk). rewrite Z2Nat.id by lia. auto.
Qed.
(** and it is positive however many items there are *)
Lemma bucket_size_pos n : 1 <= Z.of_nat n < 2 ^ 53 -> (0 < bucket_size n)%nat.
Proof.
  intros Hn. set (N := Z.of_nat n) in *. destruct (sqrt64_between N 1 0 (2 ^ 27) 0) as (y & D & L & U); try (cbn; lia).
  unfold bucket_size, round64. fold N. set (z := Qfloor (fvalue (sqrt64 (f64_of N)) + (1 # 2))). pose proof (fvalue_eq _ _ D) as V.
  assert (Z1 : 1 <= z).
  { unfold z. rewrite <- (Qfloor_Z 1) at 1. apply Qfloor_resp_le. rewrite V. assert (E1 : (fr 1 (2 ^ 0) == 1)%Q) by reflexivity. rewrite E1 in L. change (inject_Z 1) with 1%Q. revert L. generalize y. intros w L. lra. }
  assert (Z2 : z < 2 ^ 53).
  { assert (z <= 2 ^ 28); [|lia]. unfold z. rewrite <- (Qfloor_Z (2 ^ 28)). apply Qfloor_resp_le. rewrite V. assert (E1 : (fr (2 ^ 27) (2 ^ 0) == 134217728 # 1)%Q) by reflexivity.
    rewrite E1 in U. change (inject_Z (2 ^ 28)) with (268435456 # 1)%Q. lra. }
  rewrite (uint_of_Z _ _ (f64_of_exact z ltac:(lia))). lia.
Qed.
