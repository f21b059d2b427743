(** Proofs about ConvFloat.v, continued: results that are floats, big floats and rationals. *)
From Coq Require Import ZArith List QArith Qpower Qabs Lia Lqa ZifyBool ZifyNat.
From Verif Require Import Base GoInt Conv ConvSpec ConvProofs Float FloatSpec FloatProofs FloatProofs2 ConvFloat ConvFloatSpec
  DecDigits ConvFloatProofs.
From Verif Require Decimal DecimalSpec.
Close Scope Q_scope.
Open Scope Z_scope.

(** ** Rounding a signed fraction to a format *)
Lemma fr_opp n d : 0 < d -> (fr (- n) d == - fr n d)%Q.
Proof. intros H. unfold fr. rewrite inject_Z_opp. field. apply injZ_nz, H. Qed.
Lemma fr_nonneg n d : 0 <= n -> 0 < d -> (0 <= fr n d)%Q.
Proof. intros Hn Hd. unfold fr. apply Qle_shift_div_l; [apply injZ_pos, Hd|]. rewrite Qmult_0_l. change 0%Q with (inject_Z 0). rewrite <- Zle_Qle. exact Hn. Qed.
Lemma fr_sign n d : 0 < d -> (fr n d == if n <? 0 then - fr (Z.abs n) d else fr (Z.abs n) d)%Q.
Proof.
  intros Hd. destruct (n <? 0) eqn:C.
  - rewrite <- fr_opp by exact Hd. replace (- Z.abs n) with n by lia. reflexivity.
  - replace (Z.abs n) with n by lia. reflexivity.
Qed.
Lemma Qabs_opp_minus a b : (Qabs (- a - - b) == Qabs (a - b))%Q.
Proof. rewrite <- Qabs_opp. apply Qabs_wd. ring. Qed.

(** the result of rounding +-n/d *)
Lemma to_fmt_signed s (neg : bool) n d (q : Q) : 0 <= n -> 0 < d -> (q == if neg then - fr n d else fr n d)%Q ->
  is_float (fmt_of s) (to_fmt (fmt_of s) neg n d) /\
  (representable (fmt_of s) q -> denotes (to_fmt (fmt_of s) neg n d) q) /\
  ((Qabs q <= max_finite (fmt_of s))%Q -> nearest_in (fmt_of s) q (to_fmt (fmt_of s) neg n d)).
Proof.
  intros Hn Hd Eq. destruct (fmt_ok s) as (P1 & P2 & P3).
  assert (I : is_float (fmt_of s) (to_fmt (fmt_of s) neg n d)) by (apply to_fmt_is_float; assumption).
  split; [exact I|]. split.
  - intros R. assert (R' : representable (fmt_of s) (fr n d)).
    { destruct neg; [|apply (rep_eq s q); assumption]. apply (rep_eq s (- q)%Q); [rewrite Eq; ring|]. apply representable_opp; assumption. }
    destruct (to_fmt_exact (fmt_of s) P1 P2 neg n d Hn Hd R') as (m & e & -> & E). cbn [denotes]. rewrite Eq.
    destruct neg; rewrite <- E; [rewrite digits_opp|]; reflexivity.
  - intros M. assert (Q0 : (Qabs q == fr n d)%Q).
    { rewrite Eq. pose proof (fr_nonneg n d Hn Hd) as F. destruct neg; [rewrite Qabs_opp|]; apply Qabs_pos; exact F. }
    rewrite Q0 in M. destruct (to_fmt_nearest (fmt_of s) P1 P2 neg n d Hn Hd M) as (m & e & E & N).
    split; [exact I|]. rewrite E. exists (digits 2 (if neg then - m else m) e). cbn [denotes]. split; [reflexivity|].
    intros z R. apply rep_iff in R. destruct R as (m' & e' & H1 & H2 & H3). rewrite H3, Eq. destruct neg.
    + rewrite digits_opp. assert (E' : (digits 2 m' e' == - digits 2 (- m') e')%Q) by (rewrite digits_opp; ring).
      rewrite E', !Qabs_opp_minus. apply N; lia.
    + apply N; lia.
Qed.

Lemma frac_signed (neg : bool) m e : 0 <= m -> let '(n, d) := frac m e in 0 <= n /\ 0 < d /\
  (digits 2 (if neg then - m else m) e == if neg then - fr n d else fr n d)%Q.
Proof.
  intros Hm. pose proof (frac_spec m e) as (F1 & F2 & F3 & F4). destruct (frac m e) as [n d]. cbn [fst snd] in *.
  split; [lia|]. split; [exact F1|]. destruct neg; [rewrite digits_opp|]; rewrite F2; reflexivity.
Qed.

Lemma is_float_nonneg f x : is_float f x -> nonneg_mantissa x.
Proof. destruct x; cbn; tauto. Qed.

Lemma float_cast_ok s x q : nonneg_mantissa x -> denotes x q ->
  is_float (fmt_of s) (float_cast s x) /\ (representable (fmt_of s) q -> denotes (float_cast s x) q) /\
  ((Qabs q <= max_finite (fmt_of s))%Q -> nearest_in (fmt_of s) q (float_cast s x)).
Proof.
  destruct x as [|neg|neg m e]; cbn [denotes]; try tauto. intros Hm H. unfold float_cast.
  pose proof (frac_signed neg m e Hm) as F. destruct (frac m e) as [n d]. destruct F as (F1 & F2 & F3).
  apply to_fmt_signed; try assumption. rewrite H. exact F3.
Qed.

Lemma exact_result s q (x : float) :
  is_float (fmt_of s) x -> (representable (fmt_of s) q -> denotes x q) -> ((Qabs q <= max_finite (fmt_of s))%Q -> nearest_in (fmt_of s) q x) ->
  forall acc, acc = exact q x -> exact_to_float (fmt_of s) q (if negb acc then (Some conv_err, x) else (None, x)).
Proof.
  intros I D N acc ->. split.
  - intros R. assert (E : exact q x = true) by apply exact_iff, D, R. rewrite E. cbn. auto.
  - intros R. destruct (exact q x) eqn:E.
    { exfalso. apply R. apply (denotes_representable _ x); [exact I|]. apply exact_iff, E. }
    cbn. split; [discriminate|exact N].
Qed.
Lemma exact_eq q r x : (q == r)%Q -> exact q x = exact r x.
Proof.
  intros E. destruct (exact q x) eqn:A; destruct (exact r x) eqn:B; try reflexivity.
  - apply exact_iff in A. apply (denotes_eq _ _ _ E) in A. apply exact_iff in A. congruence.
  - apply exact_iff in B. symmetry in E. apply (denotes_eq _ _ _ E) in B. apply exact_iff in B. congruence.
Qed.

Lemma bigfloat_to_float_exact s x q : nonneg_mantissa x -> denotes x q -> exact_to_float (fmt_of s) q (bigfloat_to_float s x).
Proof.
  intros Hm H. pose proof (float_cast_ok s x q Hm H) as (A & B & C).
  destruct x as [|neg|neg m e]; try (cbn in H; tauto). unfold bigfloat_to_float, bigfloat_float. unfold float_cast in *.
  destruct (frac m e) as [n d] eqn:Ef. apply exact_result; try assumption. apply exact_eq. apply denotes_value, H.
Qed.
Lemma bigrat_to_float_exact s q : exact_to_float (fmt_of s) q (bigrat_to_float s q).
Proof.
  unfold bigrat_to_float.
  destruct (to_fmt_signed s (Qnum q <? 0) (Z.abs (Qnum q)) (Zpos (Qden q)) q ltac:(lia) ltac:(lia)) as (A & B & C).
  - transitivity (fr (Qnum q) (Zpos (Qden q))); [|apply fr_sign; lia].
    unfold fr. destruct q as [n d]. cbn [Qnum Qden]. rewrite (Qmake_Qdiv n d). reflexivity.
  - apply exact_result; auto.
Qed.

(** ** Precisions *)
Lemma bits_of_len_ok len v : 0 <= v < 10 ^ Z.of_nat len -> v < 2 ^ bits_of_len len.
Proof.
  intros H. unfold bits_of_len. destruct (Z.eq_dec (Z.of_nat len) 0) as [E|E].
  - rewrite E in *. change (10 ^ 0) with 1 in *. assert (v = 0) by lia. subst v. reflexivity.
  - assert (1 < 10 ^ Z.of_nat len) by (apply Z.pow_gt_1; lia). pose proof (Z.log2_up_spec (10 ^ Z.of_nat len) ltac:(lia)). lia.
Qed.
Lemma string_len v : Z.abs v < 10 ^ Z.of_nat (length (Decimal.int_to_string v)).
Proof.
  unfold Decimal.int_to_string. destruct (v <? 0) eqn:C.
  - cbn [length]. rewrite map_length. pose proof (dec_lt_len (- v) ltac:(lia)) as H. unfold DecimalSpec.p10 in H.
    assert (10 ^ Z.of_nat (S (length (Decimal.dec (- v)))) = 10 * 10 ^ Z.of_nat (length (Decimal.dec (- v)))).
    { rewrite Nat2Z.inj_succ, Z.pow_succ_r by lia. reflexivity. }
    lia.
  - rewrite map_length. pose proof (dec_lt_len v ltac:(lia)) as H. unfold DecimalSpec.p10 in H. lia.
Qed.
Lemma bits_pos len : (1 <= len)%nat -> 1 <= bits_of_len len.
Proof.
  intros H. unfold bits_of_len. apply (Z.log2_up_le_mono 2). transitivity (10 ^ 1); [discriminate|].
  apply Z.pow_le_mono_r; lia.
Qed.
Lemma string_len_pos v : (1 <= length (Decimal.int_to_string v))%nat.
Proof.
  unfold Decimal.int_to_string. destruct (v <? 0) eqn:C; cbn [length]; [lia|]. rewrite map_length. apply dec_len_pos. lia.
Qed.
Lemma string_bits_fit v : Z.abs v < 2 ^ bits_of_len (length (Decimal.int_to_string v)).
Proof. apply bits_of_len_ok. split; [lia|]. apply string_len. Qed.

Lemma to_prec_nonneg p neg n d : 1 <= p -> 0 <= n -> 0 < d -> nonneg_mantissa (to_prec p neg n d).
Proof. intros H1 H2 H3. destruct (to_prec_nearest p neg n d H1 H2 H3) as (m & e & -> & Hm & _). exact Hm. Qed.
Lemma int_to_bigfloat_exact v : denotes (int_to_bigfloat v) (inject_Z v).
Proof.
  unfold int_to_bigfloat. apply (denotes_eq _ (fr v 1)); [apply fr_1|]. apply to_prec_denotes; [|lia|].
  - apply bits_pos, string_len_pos.
  - destruct (short_int (bits_of_len (length (Decimal.int_to_string v))) v) as (m & e & H1 & H2); [apply string_bits_fit|].
    exists m, e. split; [exact H1|]. rewrite fr_1. exact H2.
Qed.
Lemma int_to_bigfloat_nonneg v : nonneg_mantissa (int_to_bigfloat v).
Proof. apply to_prec_nonneg; [apply bits_pos, string_len_pos|lia|lia]. Qed.
Lemma bigint_to_bigfloat_exact v : denotes (bigint_to_bigfloat v) (inject_Z v).
Proof.
  unfold bigint_to_bigfloat, round_literal, string_bits. apply (denotes_eq _ (fr v 1)); [apply fr_1|]. apply to_prec_denotes; [lia|lia|].
  set (b := bits_of_len (length (Decimal.int_to_string v))).
  destruct (short_int (Z.max 53 b) v) as (m & e & H1 & H2).
  { eapply Z.lt_le_trans; [apply string_bits_fit|]. fold b. apply Z.pow_le_mono_r; lia. }
  exists m, e. split; [exact H1|]. rewrite fr_1. exact H2.
Qed.
Lemma bigint_to_bigfloat_nonneg v : nonneg_mantissa (bigint_to_bigfloat v).
Proof. apply to_prec_nonneg; [unfold string_bits; lia|lia|lia]. Qed.
Lemma bigint_to_float_exact s z : exact_to_float (fmt_of s) (inject_Z z) (bigint_to_float s z).
Proof. apply (bigfloat_to_float_exact s (bigint_to_bigfloat z)); [apply bigint_to_bigfloat_nonneg|apply bigint_to_bigfloat_exact]. Qed.
Lemma uint_to_bigfloat_nearest v : 0 <= v -> exists y, denotes (uint_to_bigfloat v) y /\
  (forall z, short 2 53 z -> (Qabs (inject_Z v - y) <= Qabs (inject_Z v - z))%Q) /\ (short 2 53 (inject_Z v) -> (y == inject_Z v)%Q).
Proof.
  intros H. unfold uint_to_bigfloat. destruct (to_prec_nearest 53 false v 1 ltac:(lia) H ltac:(lia)) as (m & e & -> & Hm & N).
  exists (digits 2 m e). cbn [denotes]. split; [reflexivity|].
  assert (N' : forall z, short 2 53 z -> (Qabs (inject_Z v - digits 2 m e) <= Qabs (inject_Z v - z))%Q).
  { intros z (m' & e' & H1 & H2). rewrite H2, <- fr_1. apply N, H1. }
  split; [exact N'|]. intros Sh. specialize (N' _ Sh).
  assert (Z0 : (inject_Z v - inject_Z v == 0)%Q) by ring. rewrite Z0 in N'. change (Qabs 0) with 0%Q in N'.
  apply Qabs_Qle_condition in N'. destruct N' as [A B]. change (Qopp 0) with 0%Q in A.
  set (a := inject_Z v) in *. set (b := digits 2 m e) in *. lra.
Qed.
