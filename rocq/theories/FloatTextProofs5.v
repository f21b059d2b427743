(** Reading back what FloatToString writes; one text for one float. *)
From Coq Require Import ZArith List QArith Qpower Qabs Bool Lia Lqa.
From Verif Require Import Base Float FloatSpec FloatProofs FloatProofs2 ConvFloat ConvFloatSpec ConvFloatProofs2 ConvFloatProofs3 Literal LiteralSpec LiteralProofs LiteralProofs2 LiteralProofs3
  Decimal DecimalSpec DecDigits FloatSpec FloatText FloatTextSpec FloatTextProofs FloatTextProofs2 FloatTextProofs3 FloatTextProofs4.
Import ListNotations.
Close Scope Q_scope.
Open Scope Z_scope.

(** ** the number alone matters *)
Lemma div_eq n d n' d' : 0 < d -> 0 < d' -> n * d' = n' * d -> n / d = n' / d' /\ (n mod d =? 0) = (n' mod d' =? 0).
Proof.
  intros H H' E. pose proof (Z.div_mod n d ltac:(lia)) as D. pose proof (Z.mod_pos_bound n d H) as B.
  set (q := n / d) in *. set (r := n mod d) in *.
  assert (R : r * d' = (n' - d' * q) * d) by nia.
  assert (B' : 0 <= n' - d' * q < d') by nia.
  assert (E1 : n' / d' = q) by (symmetry; apply (Z.div_unique_pos n' d' q (n' - d' * q)); lia).
  assert (E2 : n' mod d' = n' - d' * q) by (symmetry; apply (Z.mod_unique_pos n' d' q (n' - d' * q)); lia).
  rewrite E1, E2. split; [reflexivity|]. destruct (r =? 0) eqn:C1, (n' - d' * q =? 0) eqn:C2; try reflexivity; [apply Z.eqb_eq in C1|apply Z.eqb_eq in C2];
    [apply Z.eqb_neq in C2|apply Z.eqb_neq in C1]; nia.
Qed.
Lemma reads_back_eq f n d n' d' c g : 0 < d -> 0 < d' -> n * d' = n' * d -> reads_back f n d c g = reads_back f n' d' c g.
Proof.
  intros H H' E. unfold reads_back. destruct (scale 10 (- g) c 1) as [a b]. destruct (to_fmt f false a b) as [|?|s m e]; try reflexivity.
  destruct (frac m e) as [p q]. destruct (p * d =? n * q) eqn:C1, (p * d' =? n' * q) eqn:C2; try reflexivity; exfalso;
    [apply Z.eqb_eq in C1; apply Z.eqb_neq in C2|apply Z.eqb_eq in C2; apply Z.eqb_neq in C1].
  - apply C2. apply (Z.mul_reg_r _ _ d ltac:(lia)). transitivity ((p * d) * d'); [ring|]. rewrite C1. transitivity (q * (n * d')); [ring|]. rewrite E. ring.
  - apply C1. apply (Z.mul_reg_r _ _ d' ltac:(lia)). transitivity ((p * d') * d); [ring|]. rewrite C2. transitivity (q * (n' * d)); [ring|]. rewrite <- E. ring.
Qed.
Lemma shortest_eq f n d n' d' : 0 < n -> 0 < d -> 0 < n' -> 0 < d' -> (fr n d == fr n' d')%Q -> forall fuel k, shortest f n d fuel k = shortest f n' d' fuel k.
Proof.
  intros Hn Hd Hn' Hd' E. pose proof (proj1 (fr_cross n d n' d' Hd Hd') E) as Ec. induction fuel as [|fuel IH]; intros k; cbn [shortest]; rewrite (top_eq 10 n d n' d') by (assumption || lia);
    set (g := top 10 n' d' - k + 1); pose proof (scale_spec 10 ten_le g n d Hd) as A; pose proof (scale_spec 10 ten_le g n' d' Hd') as B;
    destruct (scale 10 g n d) as [n1 d1], (scale 10 g n' d') as [n2 d2]; destruct A as (A1 & _ & A3), B as (B1 & _ & B3);
    assert (X : n1 * d2 = n2 * d1) by (apply fr_cross; try assumption; rewrite A3, B3, E; reflexivity).
  - rewrite (rne_eq n1 d1 n2 d2) by assumption. reflexivity.
  - rewrite (rne_eq n1 d1 n2 d2) by assumption. destruct (div_eq n1 d1 n2 d2 A1 B1 X) as [-> ->].
    rewrite !(reads_back_eq f n d n' d') by assumption. rewrite IH. reflexivity.
Qed.
Lemma denotes_zero neg m e q : 0 <= m -> denotes (Fin neg m e) q -> (q == 0)%Q <-> m = 0.
Proof.
  intros Hm D. cbn in D. split.
  - intros Z0. rewrite Z0 in D. assert (X : (inject_Z (if neg then - m else m) == 0)%Q).
    { apply (Qmult_inj_r _ _ (inject_Z 2 ^ e)); [apply Qpower_not_0; discriminate|]. unfold digits in D. rewrite <- D. ring. }
    apply inject_Z_0 in X. destruct neg; lia.
  - intros ->. rewrite D. destruct neg; unfold digits; cbn [Z.opp]; change (inject_Z 0) with 0%Q; ring.
Qed.
Lemma same_number_same_text z a m e m' e' q : is_float (fmt_of z) (Fin a m e) -> is_float (fmt_of z) (Fin a m' e') -> denotes (Fin a m e) q -> denotes (Fin a m' e') q ->
  float_to_string z (Fin a m e) = float_to_string z (Fin a m' e').
Proof.
  intros F F' D D'. cbn in F, F'. destruct (Z.eq_dec m 0) as [M|M].
  - assert (M' : m' = 0). { apply (denotes_zero a m' e' q); [lia|exact D'|]. apply (denotes_zero a m e q); [lia|exact D|exact M]. } rewrite M, M'. reflexivity.
  - assert (M' : m' <> 0). { intros X. apply M. apply (denotes_zero a m e q); [lia|exact D|]. apply (denotes_zero a m' e' q); [lia|exact D'|exact X]. }
    rewrite !text_unfold by assumption. f_equal. destruct (frac_spec m e) as (A1 & A2 & A3 & _), (frac_spec m' e') as (B1 & B2 & B3 & _).
    rewrite (shortest_eq (fmt_of z) _ _ (fst (frac m' e')) (snd (frac m' e'))); [reflexivity|apply A3; lia|exact A1|apply B3; lia|exact B1|].
    rewrite A2, B2. cbn in D, D'. rewrite D in D'. destruct a; [rewrite !digits_opp in D'|]; lra.
Qed.

(** ** the text as a numeral *)
Lemma plain_mantissa t m f : plain t m f -> mantissa t m f.
Proof.
  intros [l W|l r c W D C]; [apply mant_int, W|]. destruct W as [[N Dl] _].
  replace (Z.of_nat (length r) + 1) with (Z.of_nat (length (r ++ [c]))) by (rewrite app_length; cbn [length]; lia).
  apply mant_point; [exact Dl|apply Forall_app; split; [exact D|constructor; [lia|constructor]]|]. destruct l; [congruence|discriminate].
Qed.
Lemma text_numeral (neg : bool) t m f : plain t m f -> numeral (if neg then 45 :: t else t) neg m f 10 0.
Proof.
  intros P. apply plain_mantissa in P. rewrite <- (app_nil_r t). destruct neg; [apply num_minus|apply num_plain]; try exact P; apply exp_none.
Qed.
Lemma text_parse (neg : bool) t m f : plain t m f -> 0 <= f <= 4000 -> Z.log2 m <= 40000 ->
  exists n d, float_parse (if neg then 45 :: t else t) = Some (LNum neg n d) /\ 0 <= n /\ 0 < d /\ (fr n d == inject_Z m * inject_Z 10 ^ (- f))%Q /\
    (if neg then 45 :: t else t) <> nan_text.
Proof.
  intros P Hf Hm. pose proof (text_numeral neg t m f P) as N.
  destruct (float_parse_numeral _ _ _ _ _ _ N) as (l & E & V); [split; vm_compute; congruence| |].
  { right. pose proof (Z.log2_nonneg m). lia. }
  destruct l as [a|a n d]; [destruct V|]. destruct V as (-> & Hn & Hd & V). exists n, d. split; [exact E|]. split; [exact Hn|]. split; [exact Hd|]. split.
  - rewrite <- Qmake_fr by exact Hd. unfold numeral_value in V. change (inject_Z 10 ^ 0)%Q with 1%Q in V. destruct neg.
    + assert (X : (Qmake (- n) (Z.to_pos d) == - Qmake n (Z.to_pos d))%Q) by reflexivity. rewrite X, inject_Z_opp in V. rewrite <- (Qopp_involutive (Qmake n (Z.to_pos d))), V. ring.
    + rewrite V. ring.
  - destruct (plain_nonneg _ _ _ P) as (_ & _ & c & r & -> & Hc). destruct neg; unfold nan_text; intros X; injection X; lia.
Qed.
Lemma signbit_of_number x y q : nonneg_mantissa x -> nonneg_mantissa y -> denotes x q -> denotes y q -> ~ (q == 0)%Q -> same_float x y.
Proof.
  intros Nx Ny Dx Dy N. destruct x as [|?|a m e]; cbn in Dx; try tauto. destruct y as [|?|b m' e']; cbn in Dy; try tauto. cbn. split; [|exists q; split; assumption].
  cbn in Nx, Ny. destruct (Bool.bool_dec a b) as [|Nab]; [assumption|exfalso]. apply N.
  assert (Pos : forall u w, 0 <= u -> (0 <= digits 2 u w)%Q).
  { intros u w Hu. unfold digits. apply Qmult_le_0_compat; [change 0%Q with (inject_Z 0); rewrite <- Zle_Qle; lia|]. apply Qlt_le_weak, (P_pos 2 two_le). }
  pose proof (Pos m e Nx). pose proof (Pos m' e' Ny). destruct a, b; try congruence; rewrite digits_opp in *; lra.
Qed.

(** reading back a text whose number is exactly that of the float *)
Lemma read_exact z (neg : bool) t m f q o : plain t m f -> 0 <= f <= 4000 -> Z.log2 m <= 40000 -> representable (fmt_of z) q -> (q == inject_Z m * inject_Z 10 ^ (- f))%Q ->
  exists y, string_to_float float_parse z (if neg then 45 :: t else t) o = (None, y) /\ denotes y (if neg then - q else q) /\ is_float (fmt_of z) y.
Proof.
  intros P Hf Hm R E. destruct (text_parse neg t m f P Hf Hm) as (n & d & E1 & Hn & Hd & E2 & Nt). set (s := if neg then 45 :: t else t) in *.
  unfold string_to_float, string_to_bigfloat. destruct (list_eq_dec Z.eq_dec s nan_text); [contradiction|]. rewrite E1.
  destruct (fmt_ok z) as [Hp He].
  destruct (round_literal_ok (string_bits (length s)) neg n d ltac:(unfold string_bits; lia) Hn Hd) as (y & Y1 & Y2 & Y3).
  assert (Eq : ((if neg then - fr n d else fr n d) == (if neg then - q else q))%Q) by (destruct neg; rewrite E2, E; reflexivity).
  assert (R' : representable (fmt_of z) (if neg then - q else q)) by (destruct neg; [apply representable_opp; assumption|exact R]).
  assert (Sh : short 2 53 (if neg then - fr n d else fr n d)).
  { apply (short_eq _ _ (if neg then - q else q)%Q); [symmetry; exact Eq|]. apply (proj1 (representable_iff _ Hp _)) in R'. destruct R' as (m1 & e1 & H1 & _ & H3). exists m1, e1. split; [|exact H3].
    destruct z; cbn [fmt_of fp f32 f64] in H1; [|exact H1]. eapply Z.lt_trans; [exact H1|reflexivity]. }
  assert (Ey : (y == if neg then - q else q)%Q).
  { rewrite <- Eq. apply (nearest_short_exact 2 _ _ y Y3). eapply short_mono; [|exact Sh]. unfold string_bits. lia. }
  pose proof (bigfloat_to_float_exact z _ y Y2 Y1) as [X _]. destruct X as (A & B & C); [apply (representable_eq _ Hp (if neg then - q else q)%Q); [symmetry; exact Ey|exact R']|].
  destruct (bigfloat_to_float z _) as [e v]. cbn [fst snd] in *. subst e. exists v. split; [reflexivity|]. split; [apply (denotes_eq _ y); assumption|exact B].
Qed.

(** reading back a short text as a float64 *)
Lemma to_prec_rv neg n d : 0 < n -> 0 < d -> (inject_Z 2 ^ (-100) <= fr n d)%Q ->
  exists m e, to_prec 53 neg n d = Fin neg m e /\ 0 <= m /\ (digits 2 m e == rv f64 (fr n d))%Q.
Proof.
  intros Hn Hd L. unfold to_prec. rewrite (proj2 (Z.eqb_neq n 0)) by lia.
  pose proof (top_spec 2 two_le n d Hn Hd) as [_ T].
  assert (Ht : -101 < top 2 n d). { assert (-100 < top 2 n d + 1); [|lia]. apply P2_lt_inv. eapply Qle_lt_trans; [exact L|exact T]. }
  assert (E : round 2 53 None n d = round 2 (fp f64) (Some (femin f64)) n d).
  { unfold round. cbn [fp femin f64]. rewrite Z.max_r by lia. reflexivity. }
  pose proof (round_range 2 two_le 53 None n d ltac:(lia) Hn Hd) as R.
  assert (D : (digits 2 (fst (round 2 53 None n d)) (snd (round 2 53 None n d)) == rv f64 (fr n d))%Q).
  { unfold rv. rewrite rnd_fr by assumption. rewrite (normal_digits f64 (proj1 f64_ok)). rewrite <- E. reflexivity. }
  destruct (round 2 53 None n d) as [m e]. cbn [fst snd] in *.
  exists m, e. split; [reflexivity|]. split; [lia|exact D].
Qed.
Lemma plain_length t m f : plain t m f -> f <= Z.of_nat (length t).
Proof.
  intros P. destruct (plain_facts _ _ _ P) as (l & r & W & D & Em & Ef & Et & C). subst. rewrite app_length. destruct r; cbn [length]; lia.
Qed.
Lemma read_short (neg : bool) t m f q o : plain t m f -> 0 < m -> (length (if neg then 45%Z :: t else t) <= 15)%nat -> 0 <= f <= 4000 -> Z.log2 m <= 40000 -> representable f64 q ->
  (rv f64 (inject_Z m * inject_Z 10 ^ (- f)) == q)%Q ->
  exists y, string_to_float float_parse S64 (if neg then 45 :: t else t) o = (None, y) /\ denotes y (if neg then - q else q) /\ is_float f64 y.
Proof.
  intros P Pm Len Hf Hm R E. destruct (text_parse neg t m f P Hf Hm) as (n & d & E1 & Hn & Hd & E2 & Nt). set (s := if neg then 45 :: t else t) in *.
  assert (Lf : f <= 15) by (pose proof (plain_length _ _ _ P); unfold s in Len; destruct neg; cbn [length] in Len; lia).
  assert (Lo : (inject_Z 2 ^ (-100) <= fr n d)%Q).
  { rewrite E2. apply Qle_trans with (1 * inject_Z 10 ^ (-15))%Q; [vm_compute; discriminate|].
    apply Qle_trans with (1 * inject_Z 10 ^ (- f))%Q; [rewrite !Qmult_1_l; apply (P_mono 10 ten_le); lia|].
    apply Qmult_le_r; [apply P10_pos|]. change 1%Q with (inject_Z 1). rewrite <- Zle_Qle. lia. }
  assert (Pn : 0 < n). { apply (fr_pos n d Hd). eapply Qlt_le_trans; [|exact Lo]. reflexivity. }
  destruct (to_prec_rv neg n d Pn Hd Lo) as (mm & e & T1 & T2 & T3).
  assert (Sb : string_bits (length s) = 53).
  { unfold string_bits, bits_of_len. apply Z.max_l. apply Z.le_trans with (Z.log2_up (10 ^ 15)); [apply Z.log2_up_le_mono, Z.pow_le_mono_r; lia|]. vm_compute. discriminate. }
  unfold string_to_float, string_to_bigfloat. destruct (list_eq_dec Z.eq_dec s nan_text); [contradiction|]. rewrite E1, Sb. cbn [round_literal]. rewrite T1.
  assert (Eq : (digits 2 mm e == q)%Q).
  { rewrite T3, <- E. apply rv_wd; [apply fr_pos; assumption|exact E2]. }
  destruct (bigfloat_to_float_exact S64 (Fin neg mm e) (if neg then - q else q)%Q) as [X _]; [exact T2|cbn; destruct neg; [rewrite digits_opp|]; rewrite Eq; reflexivity|].
  destruct X as (A & B & C); [destruct neg; [apply representable_opp; [exact (proj1 f64_ok)|exact R]|exact R]|].
  destruct (bigfloat_to_float S64 _) as [er v]. cbn [fst snd] in *. subst er. exists v. split; [reflexivity|]. split; assumption.
Qed.
