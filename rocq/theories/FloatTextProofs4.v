(** FloatToString. *)
From Coq Require Import ZArith List QArith Qpower Qabs Bool Lia Lqa.
From Verif Require Import Base Float FloatSpec FloatProofs FloatProofs2 ConvFloat ConvFloatSpec ConvFloatProofs2 ConvFloatProofs3 Literal LiteralSpec LiteralProofs LiteralProofs2 LiteralProofs3
  Decimal DecimalSpec DecDigits FloatSpec FloatText FloatTextSpec FloatTextProofs FloatTextProofs2 FloatTextProofs3.
Import ListNotations.
Close Scope Q_scope.
Open Scope Z_scope.

(** ** rounds_to *)
Section Fmt.
  Variable f : fmt.
  Hypotheses (Hp : 1 <= fp f) (He : femin f <= femax f).

  Lemma to_fmt_sign neg n d : to_fmt f (negb neg) n d = match to_fmt f neg n d with NaN => NaN | Inf a => Inf (negb a) | Fin a m e => Fin (negb a) m e end.
  Proof.
    unfold to_fmt. destruct (n =? 0); [reflexivity|]. destruct (round _ _ _ _ _) as [m e]. destruct (m =? 2 ^ fp f); cbn iota; destruct (femax f <? _); reflexivity.
  Qed.
  Lemma to_fmt_flip neg n d q : denotes (to_fmt f (negb neg) n d) (- q) <-> denotes (to_fmt f neg n d) q.
  Proof.
    rewrite to_fmt_sign. destruct (to_fmt f neg n d) as [|a|a m e]; cbn; try tauto.
    assert (X : (digits 2 (if negb a then (- m)%Z else m) e == - digits 2 (if a then (- m)%Z else m) e)%Q).
    { destruct a; cbn; rewrite ?digits_opp; ring. }
    rewrite X. split; intros H; [|rewrite H; reflexivity]. rewrite <- (Qopp_involutive q), H. apply Qopp_involutive.
  Qed.
  Lemma rounds_opp v q : rounds_to f v q <-> rounds_to f (- v) (- q).
  Proof.
    unfold rounds_to. destruct v as [a b]. cbn [Qopp Qnum Qden]. rewrite Z.abs_opp.
    destruct (Z.eq_dec a 0) as [->|N].
    - cbn [Z.opp Z.ltb Z.compare Z.abs]. cbn. unfold digits. change (inject_Z 0) with 0%Q. rewrite !Qmult_0_l. split; intros H; [rewrite H; reflexivity|]. lra.
    - replace (- a <? 0) with (negb (a <? 0)); [symmetry; apply to_fmt_flip|]. destruct (a <? 0) eqn:E1, (- a <? 0) eqn:E2; cbn; try reflexivity; lia.
  Qed.
  Lemma rounds_pos v q : (0 < q)%Q -> representable f q -> rounds_to f v q <-> (0 < v)%Q /\ (rv f v == q)%Q.
  Proof.
    intros Hq R. unfold rounds_to.
    destruct (Z.lt_trichotomy (Qnum v) 0) as [L|[L|L]].
    - rewrite (proj2 (Z.ltb_lt _ _) L). split.
      + intros H. exfalso. pose proof (to_fmt_is_float f Hp He true (Z.abs (Qnum v)) (Zpos (Qden v)) ltac:(lia) ltac:(lia)) as Fl.
        rewrite to_fmt_unfold in * by lia. cbn zeta in *. destruct (femax f <? _); cbn in H; [tauto|]. cbn in Fl.
        rewrite H in Hq. rewrite digits_opp in Hq. set (m := fst _) in *. set (e := snd _) in *.
        assert (0 <= digits 2 m e)%Q; [|lra]. unfold digits. apply Qmult_le_0_compat; [change 0%Q with (inject_Z 0); rewrite <- Zle_Qle; lia|]. apply Qlt_le_weak, (P_pos 2 two_le).
      + intros [X _]. apply num_pos in X. lia.
    - rewrite L. cbn [Z.abs Z.ltb Z.compare]. cbn. unfold digits. change (inject_Z 0) with 0%Q. rewrite Qmult_0_l. split; [intros X; rewrite X in Hq; exfalso; lra|]. intros [X _]. apply num_pos in X. lia.
    - rewrite (proj2 (Z.ltb_ge _ _) (Z.lt_le_incl _ _ L)). rewrite Z.abs_eq by lia. rewrite (to_fmt_rv f Hp He false (Qnum v) (Zpos (Qden v)) q L (Pos2Z.is_pos _) R).
      assert (Pv : (0 < v)%Q) by (unfold Qlt; cbn; lia).
      assert (W : (rv f (fr (Qnum v) (Zpos (Qden v))) == rv f v)%Q) by (apply rv_wd; [apply fr_pos; lia|apply fr_Q]). rewrite W. tauto.
  Qed.
  Lemma rounds_wd v v' q : (v == v')%Q -> ~ (q == 0)%Q -> representable f q -> rounds_to f v q -> rounds_to f v' q.
  Proof.
    intros E N R H. destruct (Q_dec q 0) as [[L|L]|L]; [| |contradiction].
    - apply rounds_opp in H. apply rounds_opp. assert (R' : representable f (- q)) by (apply representable_opp; assumption).
      apply rounds_pos in H; [|lra|exact R']. apply rounds_pos; [lra|exact R'|]. destruct H as [H1 H2]. split; [lra|]. rewrite <- H2. apply rv_wd; lra.
    - apply rounds_pos in H; [|exact L|exact R]. apply rounds_pos; [exact L|exact R|]. destruct H as [H1 H2]. split; [lra|]. rewrite <- H2. apply rv_wd; lra.
  Qed.
  Lemma rounds_nearest v q r : ~ (q == 0)%Q -> representable f q -> rounds_to f v q -> representable f r -> (Qabs (v - q) <= Qabs (v - r))%Q.
  Proof.
    assert (Pos : forall v q r, (0 < q)%Q -> representable f q -> rounds_to f v q -> representable f r -> (Qabs (v - q) <= Qabs (v - r))%Q).
    { intros v0 q0 r0 Hq R H R0. apply rounds_pos in H; [|exact Hq|exact R]. destruct H as [H1 H2]. rewrite <- H2. apply rv_nearest; try assumption. apply rep_grid; assumption. }
    intros N R H Rr. destruct (Q_dec q 0) as [[L|L]|L]; [| |contradiction]; [|apply Pos; assumption].
    apply rounds_opp in H. pose proof (Pos (- v)%Q (- q)%Q (- r)%Q ltac:(lra) ltac:(apply representable_opp; assumption) H ltac:(apply representable_opp; assumption)) as X.
    setoid_replace (v - q)%Q with (- (- v - - q))%Q by ring. setoid_replace (v - r)%Q with (- (- v - - r))%Q by ring. rewrite !Qabs_opp. exact X.
  Qed.
  Lemma rounds_fun v q q' : rounds_to f v q -> rounds_to f v q' -> (q == q')%Q.
  Proof. apply denotes_unique. Qed.
End Fmt.

Lemma fmt_ok z : 1 <= fp (fmt_of z) /\ femin (fmt_of z) <= femax (fmt_of z).
Proof. destruct z; [apply f32_ok|apply f64_ok]. Qed.
Lemma enough_digits z : 2 ^ fp (fmt_of z) < 10 ^ (Z.of_nat (most_digits z) - 1) /\ (1 <= most_digits z)%nat.
Proof. destruct z; cbn -[Z.pow]; split; try lia; reflexivity. Qed.
Lemma short_opp b p v : short b p v -> short b p (- v).
Proof. intros (m & e & H & E). exists (- m), e. rewrite Z.abs_opp. split; [exact H|]. rewrite digits_opp, E. reflexivity. Qed.
Lemma short_eq b p v w : (v == w)%Q -> short b p v -> short b p w.
Proof. intros E (m & e & H & X). exists m, e. split; [exact H|]. rewrite <- E. exact X. Qed.

(** ** a number other than zero *)
Lemma text_unfold z neg m e : m <> 0 -> float_to_string z (Fin neg m e) =
  (if neg then [45] else []) ++ (let '(c, g) := shortest (fmt_of z) (fst (frac m e)) (snd (frac m e)) (most_digits z) 1 in
   fmt_f (Z.max (Z.of_nat (length (strip (dec c))) - (Z.of_nat (length (dec c)) + g)) 0) (strip (dec c)) (Z.of_nat (length (dec c)) + g)).
Proof.
  intros H. unfold float_to_string. rewrite (proj2 (Z.eqb_neq m 0) H). destruct (frac m e) as [n d]. cbn [fst snd]. destruct (shortest _ _ _ _ _) as [c g]. reflexivity.
Qed.

Lemma Qinv_le a b : (0 < a)%Q -> (a <= b)%Q -> (/ b <= / a)%Q.
Proof.
  intros Ha L. assert (Hb : (0 < b)%Q) by lra. apply Qle_shift_inv_l; [exact Ha|]. apply (Qmult_le_r _ _ b); [exact Hb|].
  setoid_replace (/ b * a * b)%Q with a by (field; lra). rewrite Qmult_1_l. exact L.
Qed.
Lemma inv_pow_le k : 0 <= k -> (inject_Z 10 ^ (- k) <= inject_Z 2 ^ (- k))%Q.
Proof. intros H. rewrite !Qpower_opp. apply Qinv_le; [apply Qpower_2_pos|apply ten_le_pow, H]. Qed.

(** the text of a number other than zero: sign, digits of [mm] with [ff] after the point *)
Lemma text_spec z neg m e : is_float (fmt_of z) (Fin neg m e) -> m <> 0 ->
  exists t mm ff k, float_to_string z (Fin neg m e) = (if neg then 45 :: t else t) /\ plain t mm ff /\ 0 < mm /\ 0 <= ff <= 4000 /\ Z.log2 mm <= 40000 /\
    let v := (inject_Z mm * inject_Z 10 ^ (- ff))%Q in let q := digits 2 m e in
    (0 < q)%Q /\ representable (fmt_of z) q /\ (0 < v)%Q /\ (rv (fmt_of z) v == q)%Q /\ 1 <= k <= Z.of_nat (most_digits z) /\ short 10 k v /\
    (forall k' y, k' < k -> (0 < y)%Q -> short 10 k' y -> ~ (rv (fmt_of z) y == q)%Q) /\
    (forall y, (0 < y)%Q -> short 10 k y -> (rv (fmt_of z) y == q)%Q -> (Qabs (q - v) <= Qabs (q - y))%Q).
Proof.
  intros Fl Hm. rewrite text_unfold by exact Hm. destruct (fmt_ok z) as [Hp He]. destruct (enough_digits z) as [B1 B2].
  assert (Pm : 0 < m) by (cbn in Fl; lia).
  destruct (frac_spec m e) as (F1 & F2 & F3 & _). specialize (F3 Pm).
  assert (R : representable (fmt_of z) (fr (fst (frac m e)) (snd (frac m e)))).
  { apply (representable_eq _ Hp (digits 2 m e)); [symmetry; exact F2|]. exists (Fin false m e). cbn in *. split; [exact Fl|reflexivity]. }
  pose proof (shortest_spec (fmt_of z) Hp He _ _ F3 F1 R (most_digits z) B1 B2) as S1.
  pose proof (top_spec 10 ten_le _ _ F3 F1) as [T1 T2]. rewrite F2 in T1, T2.
  destruct (shortest (fmt_of z) (fst (frac m e)) (snd (frac m e)) (most_digits z) 1) as [c g].
  destruct S1 as (k & K1 & K2 & K3 & K4 & K5 & K6 & K7). set (t := top 10 _ _) in *.
  destruct (fmt_f_plain c g K3) as (mm & ff & M1 & M2 & M3 & M4 & M5).
  set (text := fmt_f _ _ _) in *. exists text, mm, ff, k. split; [destruct neg; reflexivity|]. split; [exact M1|]. split; [exact M4|].
  assert (Kk : k <= 17) by (destruct z; cbn in K1; lia).
  assert (Ee : -1074 <= e <= 971) by (destruct z; cbn in Fl; lia). assert (Me : m < 2 ^ 53) by (destruct z; cbn in Fl; [|lia]; assert (2 ^ 24 < 2 ^ 53) by reflexivity; lia).
  (* bounds on the power of ten *)
  assert (Tlo : -1076 <= t).
  { destruct (Z_le_gt_dec (-1076) t) as [|G]; [assumption|exfalso].
    assert (X1 : (inject_Z 10 ^ (t + 1) <= inject_Z 10 ^ (-1075))%Q) by (apply (P_mono 10 ten_le); lia).
    assert (X2 : (inject_Z 10 ^ (-1075) <= inject_Z 2 ^ (-1075))%Q).
    { apply (inv_pow_le 1075). lia. }
    assert (X3 : (inject_Z 2 ^ (-1075) <= inject_Z 2 ^ e)%Q) by (apply (P_mono 2 two_le); lia).
    assert (X4 : (inject_Z 2 ^ e <= digits 2 m e)%Q).
    { unfold digits. setoid_replace (inject_Z 2 ^ e)%Q with (1 * inject_Z 2 ^ e)%Q at 1 by ring. apply Qmult_le_r; [apply Qpower_2_pos|]. change 1%Q with (inject_Z 1). rewrite <- Zle_Qle. lia. }
    set (a := (inject_Z 10 ^ (t + 1))%Q) in *. set (b := (inject_Z 10 ^ (-1075))%Q) in *. set (c1 := (inject_Z 2 ^ (-1075))%Q) in *. set (d1 := (inject_Z 2 ^ e)%Q) in *. set (q1 := digits 2 m e) in *.
    clear -T2 X1 X2 X3 X4. lra. }
  assert (Thi : t <= 1024).
  { destruct (Z_le_gt_dec t 1024) as [|G]; [assumption|exfalso].
    assert (X1 : (inject_Z 10 ^ 1024 <= inject_Z 10 ^ t)%Q) by (apply (P_mono 10 ten_le); lia).
    pose proof (ten_le_pow 1024 ltac:(lia)) as X2.
    assert (X3 : (digits 2 m e < inject_Z 2 ^ 1024)%Q).
    { apply Qlt_le_trans with (digits 2 (2 ^ 53) e); [apply Qlt_digits_mono; exact Me|]. unfold digits. rewrite Zpower_Qpower by lia. rewrite <- Qpower_plus by discriminate. apply (P_mono 2 two_le). lia. }
    set (a := (inject_Z 10 ^ t)%Q) in *. set (b := (inject_Z 10 ^ 1024)%Q) in *. set (c1 := (inject_Z 2 ^ 1024)%Q) in *. set (q1 := digits 2 m e) in *.
    clear -T1 X1 X2 X3. lra. }
  destruct (plain_nonneg _ _ _ M1) as (_ & Nf & _).
  split; [lia|]. split.
  { apply Z.le_trans with (Z.log2 (10 ^ (k + Z.max 0 g))).
    - apply Z.log2_le_mono. eapply Z.le_trans; [exact M5|]. rewrite Z.pow_add_r by lia. apply Z.mul_le_mono_nonneg_r; [apply Z.pow_nonneg; lia|exact K4].
    - apply Z.le_trans with (Z.log2 ((2 ^ 4) ^ (k + Z.max 0 g))); [apply Z.log2_le_mono, Z.pow_le_mono_l; lia|]. rewrite <- Z.pow_mul_r by lia. rewrite Z.log2_pow2 by lia. lia. }
  cbn zeta. assert (Pq : (0 < digits 2 m e)%Q) by (rewrite <- F2; apply fr_pos; assumption).
  assert (Pv : (0 < digits 10 c g)%Q) by (apply digits10_pos, K3).
  assert (Rv : forall y, (rv (fmt_of z) y == fr (fst (frac m e)) (snd (frac m e)))%Q <-> (rv (fmt_of z) y == digits 2 m e)%Q) by (intros y; rewrite F2; tauto).
  split; [exact Pq|]. split; [apply (representable_eq _ Hp _ _ F2 R)|]. split; [rewrite M2; exact Pv|].
  split; [rewrite (rv_wd (fmt_of z) _ (digits 10 c g)); [apply Rv; exact K5|rewrite M2; exact Pv|exact M2]|]. split; [exact K1|].
  split.
  { destruct (Z.eq_dec c (10 ^ k)) as [Ec|Ec].
    - exists 1, (k + g). split; [apply (Z.pow_gt_1 10 k); lia|]. rewrite M2, Ec. rewrite digits10_shift by lia. rewrite Z.mul_1_l. reflexivity.
    - exists c, g. split; [lia|exact M2]. }
  split; [intros k' y L Py Sy X; apply (K6 k' y L Py Sy), Rv, X|].
  intros y Py Sy X. apply Rv in X. specialize (K7 y Py Sy X). rewrite <- F2, M2. exact K7.
Qed.
