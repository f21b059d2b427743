(** Rounding to a format as a function of the number alone, and the numbers that round to a given one. *)
From Coq Require Import ZArith List QArith Qpower Qabs Bool Lia Lqa.
From Verif Require Import Base Float FloatSpec FloatProofs FloatProofs2.
Import ListNotations.
Close Scope Q_scope.
Open Scope Z_scope.

Lemma fr_cross n d n' d' : 0 < d -> 0 < d' -> (fr n d == fr n' d')%Q <-> n * d' = n' * d.
Proof.
  intros H H'. unfold fr. split; intros E.
  - assert (G : (inject_Z n * inject_Z d' == inject_Z n' * inject_Z d)%Q).
    { transitivity (inject_Z n / inject_Z d * (inject_Z d * inject_Z d'))%Q; [field; apply injZ_nz, H|]. rewrite E. field. apply injZ_nz, H'. }
    rewrite <- !inject_Z_mult in G. unfold Qeq in G. cbn in G. lia.
  - assert (G : (inject_Z n * inject_Z d' == inject_Z n' * inject_Z d)%Q) by (rewrite <- !inject_Z_mult, E; reflexivity).
    apply (Qmult_inj_r _ _ (inject_Z d * inject_Z d')).
    + intros X. apply Qmult_integral in X. destruct X as [X|X]; revert X; apply injZ_nz; assumption.
    + transitivity (inject_Z n * inject_Z d')%Q; [field; apply injZ_nz, H|]. rewrite G. field. apply injZ_nz, H'.
Qed.
Lemma fr_Q q : (fr (Qnum q) (Zpos (Qden q)) == q)%Q.
Proof. unfold fr. rewrite <- Qmake_Qdiv. destruct q. reflexivity. Qed.
Lemma fr_pos n d : 0 < d -> (0 < fr n d)%Q <-> 0 < n.
Proof.
  intros H. unfold fr. split; intros E.
  - apply (Qmult_lt_r _ _ (inject_Z d)) in E; [|apply injZ_pos, H].
    assert (G : (inject_Z n / inject_Z d * inject_Z d == inject_Z n)%Q) by (field; apply injZ_nz, H). rewrite G, Qmult_0_l in E.
    change 0%Q with (inject_Z 0) in E. rewrite <- Zlt_Qlt in E. exact E.
  - apply Qlt_shift_div_l; [apply injZ_pos, H|]. rewrite Qmult_0_l. apply injZ_pos, E.
Qed.

Lemma rne_eq n d n' d' : 0 < d -> 0 < d' -> n * d' = n' * d -> rne n d = rne n' d'.
Proof.
  intros H H' E. unfold rne. pose proof (Z.div_mod n d ltac:(lia)) as D. pose proof (Z.mod_pos_bound n d H) as B.
  set (q := n / d) in *. set (r := n mod d) in *.
  assert (R : r * d' = (n' - d' * q) * d) by nia.
  assert (B' : 0 <= n' - d' * q < d') by nia.
  assert (E1 : n' / d' = q) by (symmetry; apply (Z.div_unique_pos n' d' q (n' - d' * q)); lia).
  assert (E2 : n' mod d' = n' - d' * q) by (symmetry; apply (Z.mod_unique_pos n' d' q (n' - d' * q)); lia).
  rewrite E1, E2. set (r' := n' - d' * q) in *.
  destruct (2 * r <? d) eqn:C1, (2 * r' <? d') eqn:C2; try reflexivity; try nia.
  destruct (d <? 2 * r) eqn:C3, (d' <? 2 * r') eqn:C4; try reflexivity; nia.
Qed.
Lemma top_unique b t t' v : 2 <= b -> (Qpower (inject_Z b) t <= v < Qpower (inject_Z b) (t + 1))%Q ->
  (Qpower (inject_Z b) t' <= v < Qpower (inject_Z b) (t' + 1))%Q -> t = t'.
Proof.
  intros Hb [A B] [C D].
  destruct (Z.lt_trichotomy t t') as [L|[L|L]]; [exfalso| exact L|exfalso].
  - pose proof (P_mono b Hb (t + 1) t' ltac:(lia)). lra.
  - pose proof (P_mono b Hb (t' + 1) t ltac:(lia)). lra.
Qed.
Lemma top_eq b n d n' d' : 2 <= b -> 0 < n -> 0 < d -> 0 < n' -> 0 < d' -> (fr n d == fr n' d')%Q -> top b n d = top b n' d'.
Proof.
  intros Hb Hn Hd Hn' Hd' E. apply (top_unique b _ _ (fr n d) Hb); [apply top_spec; assumption|].
  pose proof (top_spec b Hb n' d' Hn' Hd') as [A B]. rewrite E. split; assumption.
Qed.
Lemma round_eq b p emin n d n' d' : 2 <= b -> 0 < n -> 0 < d -> 0 < n' -> 0 < d' -> (fr n d == fr n' d')%Q -> round b p emin n d = round b p emin n' d'.
Proof.
  intros Hb Hn Hd Hn' Hd' E. unfold round. rewrite (top_eq b n d n' d') by assumption.
  set (e := match emin with Some m => _ | None => _ end).
  pose proof (scale_spec b Hb e n d Hd) as A. pose proof (scale_spec b Hb e n' d' Hd') as B.
  destruct (scale b e n d) as [n1 d1], (scale b e n' d') as [n2 d2]. destruct A as (A1 & A2 & A3), B as (B1 & B2 & B3). f_equal.
  apply rne_eq; try assumption. apply fr_cross; try assumption. rewrite A3, B3, E. reflexivity.
Qed.

Section Fmt.
  Variable f : fmt.
  Hypotheses (Hp : 1 <= fp f) (He : femin f <= femax f).

  Definition rnd (q : Q) : Z * Z := normal f (round 2 (fp f) (Some (femin f)) (Qnum q) (Zpos (Qden q))).
  Definition rv (q : Q) : Q := digits 2 (fst (rnd q)) (snd (rnd q)).
  Definition grid (z : Q) : Prop := exists m e, Z.abs m < 2 ^ fp f /\ femin f <= e /\ (z == digits 2 m e)%Q.

  Lemma num_pos q : (0 < q)%Q -> 0 < Qnum q.
  Proof. unfold Qlt. cbn. lia. Qed.
  Lemma rnd_wd q r : (0 < q)%Q -> (q == r)%Q -> rnd q = rnd r.
  Proof.
    intros Hq E. unfold rnd. f_equal. apply round_eq; try lia; [apply num_pos, Hq|apply num_pos; rewrite <- E; exact Hq|].
    rewrite !fr_Q. exact E.
  Qed.
  Lemma rv_wd q r : (0 < q)%Q -> (q == r)%Q -> (rv q == rv r)%Q.
  Proof. intros Hq E. unfold rv. rewrite (rnd_wd q r Hq E). reflexivity. Qed.
  Lemma rnd_fr n d : 0 < n -> 0 < d -> rnd (fr n d) = normal f (round 2 (fp f) (Some (femin f)) n d).
  Proof.
    intros Hn Hd. unfold rnd. f_equal. apply round_eq; try lia; [apply num_pos, fr_pos; assumption|]. apply fr_Q.
  Qed.
  Lemma rv_nearest q z : (0 < q)%Q -> grid z -> (Qabs (q - rv q) <= Qabs (q - z))%Q.
  Proof.
    intros Hq (m & e & Hm & Hle & E). unfold rv, rnd. rewrite (normal_digits f Hp).
    pose proof (round_nearest 2 two_le (fp f) (Some (femin f)) _ _ Hp (num_pos q Hq) (Pos2Z.is_pos (Qden q)) m e Hm Hle) as N.
    rewrite fr_Q in N. rewrite E. exact N.
  Qed.
  Lemma rv_canon q : (0 < q)%Q -> let '(m, e) := rnd q in 0 <= m < 2 ^ fp f /\ femin f <= e /\ (e = femin f \/ 2 ^ (fp f - 1) <= m).
  Proof.
    intros Hq. unfold rnd.
    pose proof (normal_range f Hp (Qnum q) (Zpos (Qden q)) (num_pos q Hq) (Pos2Z.is_pos _)) as R. cbn zeta in R.
    pose proof (round_e 2 (fp f) (Some (femin f)) (Qnum q) (Zpos (Qden q))) as E.
    pose proof (round_lower 2 two_le (fp f) (Some (femin f)) (Qnum q) (Zpos (Qden q)) Hp (num_pos q Hq) (Pos2Z.is_pos _)) as L.
    unfold normal in *. destruct (round 2 (fp f) (Some (femin f)) (Qnum q) (Zpos (Qden q))) as [m e]. cbn [fst snd] in *.
    destruct (m =? 2 ^ fp f) eqn:C; cbn [fst snd] in *.
    - split; [lia|]. split; [lia|right; lia].
    - split; [lia|]. split; [lia|]. destruct E as [E|E]; [right; apply L, E|left; congruence].
  Qed.
  Lemma rv_grid q : (0 < q)%Q -> grid (rv q).
  Proof.
    intros Hq. pose proof (rv_canon q Hq) as R. unfold rv. destruct (rnd q) as [m e]. exists m, e. cbn [fst snd].
    split; [lia|]. split; [lia|reflexivity].
  Qed.
  Lemma Qabs_cases x : (0 <= x /\ Qabs x == x)%Q \/ (x <= 0 /\ Qabs x == - x)%Q.
  Proof. destruct (Qlt_le_dec x 0) as [H|H]; [right|left]; split; try lra; [apply Qabs_neg; lra|apply Qabs_pos, H]. Qed.
  Lemma rv_exact q : (0 < q)%Q -> grid q -> (rv q == q)%Q.
  Proof.
    intros Hq G. pose proof (rv_nearest q q Hq G) as N.
    destruct (Qabs_cases (q - rv q)) as [[A B]|[A B]], (Qabs_cases (q - q)) as [[C D]|[C D]]; rewrite B, D in N; lra.
  Qed.
  Lemma rv_convex c y : (0 < c)%Q -> (0 < y)%Q -> (c <= y <= rv c \/ rv c <= y <= c)%Q -> (rv y == rv c)%Q.
  Proof.
    intros Hc Hy B. pose proof (rv_nearest c _ Hc (rv_grid y Hy)) as N1. pose proof (rv_nearest y _ Hy (rv_grid c Hc)) as N2.
    destruct (Qeq_dec y c) as [E|E]; [apply rv_wd; assumption|].
    set (q := rv c) in *. set (z := rv y) in *.
    destruct (Qabs_cases (c - q)) as [[A1 A2]|[A1 A2]], (Qabs_cases (c - z)) as [[B1 B2]|[B1 B2]],
      (Qabs_cases (y - z)) as [[C1 C2]|[C1 C2]], (Qabs_cases (y - q)) as [[D1 D2]|[D1 D2]]; rewrite A2, B2 in N1; rewrite C2, D2 in N2;
      destruct B as [[B3 B4]|[B3 B4]]; lra.
  Qed.

  (** the conversion *)
  Lemma rep_grid q : representable f q -> grid q.
  Proof. intros R. apply (proj1 (representable_iff f Hp _)) in R. destruct R as (m & e & H1 & H2 & H3). exists m, e. split; [exact H1|]. split; [lia|exact H3]. Qed.
  Lemma rep_exponent q m e : representable f q -> (q == digits 2 m e)%Q -> 2 ^ (fp f - 1) <= m -> e <= femax f.
  Proof.
    intros R E Hm. apply (proj1 (representable_iff f Hp _)) in R. destruct R as (m' & e' & H1 & H2 & H3).
    pose proof (max_bound f Hp m' e' H1 ltac:(lia)) as M. rewrite <- H3, E in M.
    destruct (Z_le_gt_dec e (femax f)) as [|G]; [assumption|exfalso].
    assert (L : (digits 2 (2 ^ fp f) (femax f) <= digits 2 m e)%Q).
    { replace e with ((e - femax f) + femax f) by lia. rewrite digits_shift by lia. apply Qmult_le_r; [apply P_pos, two_le|]. rewrite <- Zle_Qle.
      apply Z.le_trans with (2 ^ (fp f - 1) * 2 ^ 1); [rewrite <- Z.pow_add_r by lia; apply Z.pow_le_mono_r; lia|].
      apply Z.mul_le_mono_nonneg; try lia. apply Z.pow_le_mono_r; lia. }
    pose proof (Qlt_digits_mono (2 ^ fp f - 1) (2 ^ fp f) (femax f) ltac:(lia)) as S1. lra.
  Qed.
  Lemma signed_eq (neg : bool) (a b : Q) : ((if neg then - a else a) == (if neg then - b else b))%Q <-> (a == b)%Q.
  Proof. destruct neg; split; intros H; lra. Qed.
  Lemma to_fmt_rv neg n d q : 0 < n -> 0 < d -> representable f q ->
    (denotes (to_fmt f neg n d) (if neg then - q else q)%Q <-> (rv (fr n d) == q)%Q).
  Proof.
    intros Hn Hd R. rewrite to_fmt_unfold by exact Hn. cbn zeta. rewrite <- rnd_fr by assumption.
    pose proof (rv_canon (fr n d) ltac:(apply fr_pos; assumption)) as C. unfold rv. destruct (rnd (fr n d)) as [m e] eqn:Er. cbn [fst snd].
    destruct (femax f <? e) eqn:F.
    - cbn. split; [tauto|]. intros E. destruct C as (C1 & C2 & C3). pose proof (rep_exponent q m e R ltac:(symmetry; exact E)). destruct C3 as [C3|C3]; [lia|]. lia.
    - cbn. assert (X : ((digits 2 (if neg then (- m)%Z else m) e) == if neg then - digits 2 m e else digits 2 m e)%Q) by (destruct neg; [apply digits_opp|reflexivity]).
      rewrite X, signed_eq. split; intros H; symmetry; exact H.
  Qed.

  (** neighbours *)
  Lemma grid_shift z e : grid z -> (exists j, (z == digits 2 j e)%Q) \/ (exists m' e', Z.abs m' < 2 ^ fp f /\ femin f <= e' < e /\ (z == digits 2 m' e')%Q).
  Proof.
    intros (m & e' & H1 & H2 & H3). destruct (Z_le_gt_dec e e') as [L|L].
    - left. exists (m * 2 ^ (e' - e)). rewrite H3. replace e' with ((e' - e) + e) at 1 by lia. apply digits_shift. lia.
    - right. exists m, e'. split; [exact H1|]. split; [lia|exact H3].
  Qed.
  Lemma digits_lt_inv u v e : (digits 2 u e < digits 2 v e)%Q -> u < v.
  Proof. apply Qlt_digits_inv. Qed.
  Lemma digits_plus u v e : (digits 2 (u + v) e == digits 2 u e + digits 2 v e)%Q.
  Proof. unfold digits. rewrite inject_Z_plus. ring. Qed.
  Lemma digits_1 e : (digits 2 1 e == Qpower (inject_Z 2) e)%Q.
  Proof. unfold digits. change (inject_Z 1) with 1%Q. ring. Qed.
  Lemma step_up m e j : (digits 2 m e < digits 2 j e)%Q -> (digits 2 m e + Qpower (inject_Z 2) e <= digits 2 j e)%Q.
  Proof.
    intros H. apply Qlt_digits_inv in H. rewrite <- digits_1, <- digits_plus. unfold digits. apply Qmult_le_r; [apply P_pos, two_le|].
    rewrite <- Zle_Qle. lia.
  Qed.
  Lemma above m e z : 2 ^ (fp f - 1) <= m \/ e = femin f -> grid z -> (digits 2 m e < z)%Q -> (digits 2 m e + Qpower (inject_Z 2) e <= z)%Q.
  Proof.
    intros C G L. destruct (grid_shift z e G) as [(j & E)|(m' & e' & H1 & H2 & E)].
    - rewrite E in *. apply step_up, L.
    - exfalso. destruct C as [C|C]; [|lia].
      assert (X : (z <= digits 2 m e)%Q); [|lra]. rewrite E.
      apply Qle_trans with (digits 2 (2 ^ fp f) e'); [apply Qmult_le_r; [apply P_pos, two_le|]; rewrite <- Zle_Qle; lia|].
      replace e with ((e - e') + e') by lia. rewrite digits_shift by lia. apply Qmult_le_r; [apply P_pos, two_le|]. rewrite <- Zle_Qle.
      apply Z.le_trans with (2 ^ (fp f - 1) * 2 ^ 1); [rewrite <- Z.pow_add_r by lia; apply Z.pow_le_mono_r; lia|].
      apply Z.mul_le_mono_nonneg; try lia. apply Z.pow_le_mono_r; lia.
  Qed.
  Lemma below m e z : 2 ^ (fp f - 1) <= m \/ e = femin f -> grid z -> (z < digits 2 m e)%Q ->
    (z + Qpower (inject_Z 2) e <= digits 2 m e)%Q \/ (m = 2 ^ (fp f - 1) /\ (z + Qpower (inject_Z 2) (e - 1) <= digits 2 m e)%Q).
  Proof.
    intros C G L. destruct (grid_shift z e G) as [(j & E)|(m' & e' & H1 & H2 & E)].
    - left. rewrite E in *. apply step_up, L.
    - destruct C as [C|C]; [|lia]. destruct (Z.eq_dec m (2 ^ (fp f - 1))) as [M|M].
      + right. split; [exact M|]. assert (Em : (digits 2 m e == digits 2 (2 ^ fp f) (e - 1))%Q).
        { replace e with (1 + (e - 1)) at 1 by lia. rewrite digits_shift by lia. rewrite M.
          replace (2 ^ (fp f - 1) * 2 ^ 1) with (2 ^ fp f); [reflexivity|]. rewrite <- Z.pow_add_r by lia. f_equal. lia. }
        rewrite Em in *.
        assert (X : (z <= digits 2 (2 ^ fp f - 1) (e - 1))%Q).
        { rewrite E. apply Qle_trans with (digits 2 (2 ^ fp f - 1) e'); [apply Qmult_le_r; [apply P_pos, two_le|]; rewrite <- Zle_Qle; lia|].
          unfold digits. rewrite !(Qmult_comm (inject_Z _)). apply Qmult_le_compat_r; [apply P_mono; [exact two_le|lia]|].
          change 0%Q with (inject_Z 0). rewrite <- Zle_Qle. pose proof (Z.pow_pos_nonneg 2 (fp f)). lia. }
        pose proof (step_up (2 ^ fp f - 1) (e - 1) (2 ^ fp f)) as U. pose proof (Qlt_digits_mono (2 ^ fp f - 1) (2 ^ fp f) (e - 1) ltac:(lia)) as U1. specialize (U U1). lra.
      + left. assert (X : (z <= digits 2 (m - 1) e)%Q).
        { rewrite E. apply Qle_trans with (digits 2 (2 ^ fp f) e'); [apply Qmult_le_r; [apply P_pos, two_le|]; rewrite <- Zle_Qle; lia|].
          replace e with ((e - e') + e') by lia. rewrite digits_shift by lia. apply Qmult_le_r; [apply P_pos, two_le|]. rewrite <- Zle_Qle.
          apply Z.le_trans with (2 ^ (fp f - 1) * 2 ^ 1); [rewrite <- Z.pow_add_r by lia; apply Z.pow_le_mono_r; lia|].
          apply Z.mul_le_mono_nonneg; try lia. apply Z.pow_le_mono_r; lia. }
        pose proof (step_up (m - 1) e m (Qlt_digits_mono (m - 1) m e ltac:(lia))) as U. lra.
  Qed.
  (** a number close enough to a canonical one rounds to it *)
  Lemma close_rounds m e y : 2 ^ (fp f - 1) <= m \/ e = femin f -> 0 < m < 2 ^ fp f -> femin f <= e -> (0 < y)%Q ->
    (Qabs (y - digits 2 m e) < (1 # 2) * Qpower (inject_Z 2) (if m =? 2 ^ (fp f - 1) then e - 1 else e)%Z)%Q ->
    (rv y == digits 2 m e)%Q.
  Proof.
    intros C Hm Hle Hy H. assert (G : grid (digits 2 m e)) by (exists m, e; split; [lia|]; split; [lia|reflexivity]).
    pose proof (rv_nearest y _ Hy G) as N. pose proof (rv_grid y Hy) as Gy. set (q := digits 2 m e) in *. set (z := rv y) in *.
    assert (T : (Qpower (inject_Z 2) e == 2 * Qpower (inject_Z 2) (e - 1))%Q).
    { replace e with (1 + (e - 1)) at 1 by lia. rewrite (P_plus 2 two_le). reflexivity. }
    pose proof (P_pos 2 two_le (e - 1)) as T0.
    assert (Hh : (Qabs (y - q) < (1 # 2) * Qpower (inject_Z 2) e)%Q).
    { destruct (m =? 2 ^ (fp f - 1)); [|exact H]. rewrite T. lra. }
    destruct (Q_dec z q) as [[L|L]|L]; [exfalso|exfalso|exact L].
    - destruct (below m e z C Gy L) as [B|[B1 B]]; fold q in B.
      + destruct (Qabs_cases (y - q)) as [[A1 A2]|[A1 A2]], (Qabs_cases (y - z)) as [[C1 C2]|[C1 C2]]; rewrite A2, C2 in N; rewrite A2 in Hh; lra.
      + rewrite (proj2 (Z.eqb_eq _ _) B1) in H.
        destruct (Qabs_cases (y - q)) as [[A1 A2]|[A1 A2]], (Qabs_cases (y - z)) as [[C1 C2]|[C1 C2]]; rewrite A2, C2 in N; rewrite A2 in H; lra.
    - pose proof (above m e z C Gy L) as B. fold q in B.
      destruct (Qabs_cases (y - q)) as [[A1 A2]|[A1 A2]], (Qabs_cases (y - z)) as [[C1 C2]|[C1 C2]]; rewrite A2, C2 in N; rewrite A2 in Hh; lra.
  Qed.
End Fmt.
