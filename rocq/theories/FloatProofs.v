(** Rounding is to nearest, and exact on numbers that fit. *)
From Coq Require Import ZArith List QArith Qpower Qabs Lia Lqa ZifyBool.
From Verif Require Import Base Float FloatSpec.
Close Scope Q_scope.
Open Scope Z_scope.

Ltac zsplit := repeat match goal with |- _ /\ _ => split end.

(** ** Integers *)
Lemma rne_bound n d : 0 < d -> 2 * Z.abs (n - d * rne n d) <= d.
Proof.
  intros Hd. unfold rne. pose proof (Z.div_mod n d ltac:(lia)) as E. pose proof (Z.mod_pos_bound n d Hd) as B.
  set (q := n / d) in *. set (r := n mod d) in *.
  destruct (2 * r <? d) eqn:C1; [nia|]. destruct (d <? 2 * r) eqn:C2; [nia|]. destruct (Z.even q); nia.
Qed.

Lemma rne_nearest n d j : 0 < d -> Z.abs (n - d * rne n d) <= Z.abs (n - d * j).
Proof.
  intros Hd. pose proof (rne_bound n d Hd) as B. set (k := rne n d) in *.
  destruct (Z.eq_dec j k) as [->|Hne]; [lia|].
  assert (d <= Z.abs (d * (k - j))) by (rewrite Z.abs_mul; nia). nia.
Qed.

Lemma rne_exact d j : 0 < d -> rne (d * j) d = j.
Proof. intros Hd. pose proof (rne_nearest (d * j) d j Hd). nia. Qed.

Lemma rne_mono_ub n d u : 0 < d -> n <= d * u -> rne n d <= u.
Proof.
  intros Hd Hn. pose proof (rne_nearest n d u Hd). set (k := rne n d) in *. pose proof (rne_bound n d Hd) as B. fold k in B. nia.
Qed.
Lemma rne_mono_lb n d u : 0 < d -> d * u <= n -> u <= rne n d.
Proof.
  intros Hd Hn. pose proof (rne_nearest n d u Hd). set (k := rne n d) in *. pose proof (rne_bound n d Hd) as B. fold k in B. nia.
Qed.

Lemma ilog_fuel_spec b : 2 <= b -> forall fuel n, 1 <= n -> n < 2 ^ (Z.of_nat fuel + 1) ->
  0 <= ilog_fuel fuel b n /\ b ^ ilog_fuel fuel b n <= n < b ^ (ilog_fuel fuel b n + 1).
Proof.
  intros Hb fuel. induction fuel as [|f IH]; intros n Hn Hu; cbn [ilog_fuel].
  - change (Z.of_nat 0 + 1) with 1 in Hu. rewrite Z.pow_1_r in Hu. change (0 + 1) with 1. rewrite Z.pow_0_r, Z.pow_1_r. lia.
  - destruct (n <? b) eqn:C.
    + change (0 + 1) with 1. rewrite Z.pow_0_r, Z.pow_1_r. lia.
    + assert (H1 : 1 <= n / b) by (apply Z.div_le_lower_bound; lia).
      assert (H2 : n / b < 2 ^ (Z.of_nat f + 1)).
      { apply Z.div_lt_upper_bound; [lia|].
        replace (Z.of_nat (S f) + 1) with (Z.of_nat f + 1 + 1) in Hu by lia. rewrite Z.pow_add_r, Z.pow_1_r in Hu by lia. nia. }
      destruct (IH _ H1 H2) as (H0 & Hlo & Hhi). set (l := ilog_fuel f b (n / b)) in *.
      split; [lia|].
      replace (1 + l) with (l + 1) by lia. rewrite (Z.pow_add_r b (l + 1) 1), Z.pow_1_r by lia.
      rewrite (Z.pow_add_r b l 1), Z.pow_1_r in * by lia.
      pose proof (Z.div_mod n b ltac:(lia)). pose proof (Z.mod_pos_bound n b ltac:(lia)).
      split; nia.
Qed.

Lemma ilog_spec b n : 2 <= b -> 1 <= n -> 0 <= ilog b n /\ b ^ ilog b n <= n < b ^ (ilog b n + 1).
Proof.
  intros Hb Hn. apply ilog_fuel_spec; [exact Hb|exact Hn|].
  pose proof (Z.log2_nonneg n). pose proof (Z.log2_spec n ltac:(lia)). rewrite Z2Nat.id by lia.
  replace (Z.log2 n + 1) with (Z.succ (Z.log2 n)) by lia. lia.
Qed.

(** ** Powers in Q *)
Section Pow.
  Variable b : Z.
  Hypothesis Hb : 2 <= b.
  Notation P e := (Qpower (inject_Z b) e).

  Lemma b_pos : (0 < inject_Z b)%Q.
  Proof. change 0%Q with (inject_Z 0). rewrite <- Zlt_Qlt. lia. Qed.
  Lemma b_nz : ~ (inject_Z b == 0)%Q.
  Proof. intros H. pose proof b_pos as B. rewrite H in B. exact (Qlt_irrefl _ B). Qed.
  Lemma P_pos e : (0 < P e)%Q. Proof. apply Qpower_0_lt, b_pos. Qed.
  Lemma P_nz e : ~ (P e == 0)%Q. Proof. intros H. pose proof (P_pos e) as B. rewrite H in B. exact (Qlt_irrefl _ B). Qed.
  Lemma P_plus a c : (P (a + c) == P a * P c)%Q. Proof. apply Qpower_plus, b_nz. Qed.
  Lemma P_Z e : 0 <= e -> (P e == inject_Z (b ^ e))%Q. Proof. intros He. symmetry. apply Zpower_Qpower, He. Qed.
  Lemma P_opp e : (P (- e) == / P e)%Q. Proof. apply Qpower_opp. Qed.
  Lemma P_mono a c : a <= c -> (P a <= P c)%Q.
  Proof.
    intros H. replace c with (a + (c - a)) by lia. rewrite P_plus, (P_Z (c - a)) by lia.
    assert (1 <= b ^ (c - a)) by (pose proof (Z.pow_pos_nonneg b (c - a)); lia).
    assert (inject_Z 1 <= inject_Z (b ^ (c - a)))%Q as H1 by (rewrite <- Zle_Qle; lia).
    pose proof (P_pos a). setoid_replace (P a) with (P a * inject_Z 1)%Q at 1 by (change (inject_Z 1) with 1%Q; ring).
    apply Qmult_le_l; assumption.
  Qed.

  (** the fraction n / d *)
  Definition fr (n d : Z) : Q := (inject_Z n / inject_Z d)%Q.

  Lemma injZ_pos d : 0 < d -> (0 < inject_Z d)%Q.
  Proof. intros H. change 0%Q with (inject_Z 0). rewrite <- Zlt_Qlt. exact H. Qed.
  Lemma injZ_nz d : 0 < d -> ~ (inject_Z d == 0)%Q.
  Proof. intros H E. pose proof (injZ_pos d H) as B. rewrite E in B. exact (Qlt_irrefl _ B). Qed.

  Lemma fr_le n d q : 0 < d -> ((fr n d <= q) <-> (inject_Z n <= q * inject_Z d))%Q.
  Proof. intros H. unfold fr. split; intros L.
    - pose proof (injZ_pos d H). apply (Qmult_le_r _ _ (inject_Z d)) in L; [|assumption].
      eapply Qle_trans; [|exact L]. apply Qle_lteq. right. field. apply injZ_nz, H.
    - apply Qle_shift_div_r; [apply injZ_pos, H|exact L].
  Qed.
  Lemma fr_lt n d q : 0 < d -> ((fr n d < q) <-> (inject_Z n < q * inject_Z d))%Q.
  Proof. intros H. unfold fr. split; intros L.
    - pose proof (injZ_pos d H). apply (Qmult_lt_r _ _ (inject_Z d)) in L; [|assumption].
      eapply Qle_lt_trans; [|exact L]. apply Qle_lteq. right. field. apply injZ_nz, H.
    - apply Qlt_shift_div_r; [apply injZ_pos, H|exact L].
  Qed.

  Lemma scale_spec e n d : 0 < d -> let '(n', d') := scale b e n d in
    0 < d' /\ (0 < n -> 0 < n') /\ (fr n' d' == fr n d / P e)%Q.
  Proof.
    intros Hd. unfold scale, fr. destruct (0 <=? e) eqn:C.
    - zsplit; [|tauto|]. { apply Z.mul_pos_pos; [lia|apply Z.pow_pos_nonneg; lia]. }
      rewrite inject_Z_mult, (P_Z e) by lia. field. split; apply injZ_nz; try exact Hd; apply Z.pow_pos_nonneg; lia.
    - zsplit; [lia| |]. { intros; apply Z.mul_pos_pos; [lia|apply Z.pow_pos_nonneg; lia]. }
      rewrite inject_Z_mult. replace e with (- - e) at 2 by lia. rewrite P_opp, (P_Z (- e)) by lia. field.
      split; apply injZ_nz; try exact Hd; apply Z.pow_pos_nonneg; lia.
  Qed.

  Lemma top_spec n d : 0 < n -> 0 < d -> (P (top b n d) <= fr n d /\ fr n d < P (top b n d + 1))%Q.
  Proof.
    intros Hn Hd. unfold top.
    destruct (ilog_spec b n Hb ltac:(lia)) as (Ln & Ln1 & Ln2).
    destruct (ilog_spec b d Hb ltac:(lia)) as (Ld & Ld1 & Ld2).
    set (l := ilog b n - ilog b d).
    pose proof (scale_spec l n d Hd) as H. destruct (scale b l n d) as [n' d'] eqn:Esc. destruct H as (Hd' & _ & E).
    (* P (l-1) < fr < P (l+1) *)
    assert (U : (fr n d < P (l + 1))%Q).
    { rewrite fr_lt by exact Hd. unfold l.
      replace (ilog b n - ilog b d + 1) with ((ilog b n + 1) + - ilog b d) by lia.
      rewrite P_plus, P_opp, !P_Z by lia.
      apply Qlt_le_trans with (inject_Z (b ^ (ilog b n + 1))). { rewrite <- Zlt_Qlt. lia. }
      assert (0 < b ^ ilog b d) by (apply Z.pow_pos_nonneg; lia).
      setoid_replace (inject_Z (b ^ (ilog b n + 1)) * / inject_Z (b ^ ilog b d) * inject_Z d)%Q
        with (inject_Z (b ^ (ilog b n + 1)) * (inject_Z d / inject_Z (b ^ ilog b d)))%Q by (field; apply injZ_nz; assumption).
      setoid_replace (inject_Z (b ^ (ilog b n + 1))) with (inject_Z (b ^ (ilog b n + 1)) * 1)%Q at 1 by ring.
      apply Qmult_le_l; [apply injZ_pos, Z.pow_pos_nonneg; lia|].
      apply Qle_shift_div_l; [apply injZ_pos; assumption|]. rewrite Qmult_1_l, <- Zle_Qle. lia. }
    assert (L : (P (l - 1) <= fr n d)%Q).
    { unfold l. replace (ilog b n - ilog b d - 1) with (ilog b n + - (ilog b d + 1)) by lia.
      rewrite P_plus, P_opp, !P_Z by lia. unfold fr.
      assert (0 < b ^ (ilog b d + 1)) by (apply Z.pow_pos_nonneg; lia).
      apply Qle_shift_div_l; [apply injZ_pos, Hd|].
      apply Qle_trans with (inject_Z (b ^ ilog b n)); [|rewrite <- Zle_Qle; lia].
      setoid_replace (inject_Z (b ^ ilog b n) * / inject_Z (b ^ (ilog b d + 1)) * inject_Z d)%Q
        with (inject_Z (b ^ ilog b n) * (inject_Z d / inject_Z (b ^ (ilog b d + 1))))%Q by (field; apply injZ_nz; assumption).
      setoid_replace (inject_Z (b ^ ilog b n)) with (inject_Z (b ^ ilog b n) * 1)%Q at 2 by ring.
      apply Qmult_le_l; [apply injZ_pos, Z.pow_pos_nonneg; lia|].
      apply Qle_shift_div_r; [apply injZ_pos; assumption|]. rewrite Qmult_1_l, <- Zle_Qle. lia. }
    assert (M : ((n' < d')%Z <-> fr n d < P l)%Q).
    { assert (E1 : (fr n d == fr n' d' * P l)%Q) by (rewrite E; field; apply P_nz).
      rewrite E1. split; intros H.
      - setoid_replace (P l) with (1 * P l)%Q at 2 by ring. apply Qmult_lt_r; [apply P_pos|].
        rewrite fr_lt by exact Hd'. rewrite Qmult_1_l, <- Zlt_Qlt. exact H.
      - setoid_replace (P l) with (1 * P l)%Q in H at 2 by ring. apply Qmult_lt_r in H; [|apply P_pos].
        rewrite fr_lt in H by exact Hd'. rewrite Qmult_1_l, <- Zlt_Qlt in H. exact H. }
    destruct (n' <? d') eqn:C.
    - split; [exact L|]. replace (l - 1 + 1) with l by lia. apply M. lia.
    - split; [|exact U]. apply Qnot_lt_le. intros H. apply M in H. lia.
  Qed.

  Lemma Qabs_scale (a c s : Q) : (0 < s)%Q -> (Qabs (a * s - c * s) == Qabs (a - c) * s)%Q.
  Proof.
    intros Hs. setoid_replace (a * s - c * s)%Q with ((a - c) * s)%Q by ring. rewrite Qabs_Qmult.
    rewrite (Qabs_pos s); [reflexivity|]. apply Qlt_le_weak, Hs.
  Qed.
  Lemma injZ_abs z : (inject_Z (Z.abs z) == Qabs (inject_Z z))%Q. Proof. reflexivity. Qed.
  Lemma fr_abs_le n d k j : 0 < d -> Z.abs (n - d * k) <= Z.abs (n - d * j) ->
    (Qabs (fr n d - inject_Z k) <= Qabs (fr n d - inject_Z j))%Q.
  Proof.
    intros Hd H.
    assert (G : forall i, (Qabs (fr n d - inject_Z i) * inject_Z d == inject_Z (Z.abs (n - d * i)))%Q).
    { intros i. rewrite injZ_abs. rewrite <- (Qabs_scale _ _ _ (injZ_pos d Hd)).
      apply Qabs_wd. unfold fr. unfold Zminus. rewrite inject_Z_plus, inject_Z_opp, inject_Z_mult. field. apply injZ_nz, Hd. }
    apply (Qmult_le_r _ _ (inject_Z d)); [apply injZ_pos, Hd|]. rewrite !G, <- Zle_Qle. exact H.
  Qed.

  Section Round.
    Variables (p : Z) (emin : option Z) (n d : Z).
    Hypotheses (Hp : 1 <= p) (Hn : 0 < n) (Hd : 0 < d).
    Let m := fst (round b p emin n d).
    Let e := snd (round b p emin n d).

    Lemma round_e_min : match emin with Some lo => lo <= e | None => True end.
    Proof. unfold e, round. destruct emin as [lo|]; [|exact Logic.I]. destruct (scale _ _ _ _) as [? ?]. cbn. lia. Qed.
    Lemma round_e_lo : top b n d - p + 1 <= e.
    Proof. unfold e, round. destruct (scale _ _ _ _) as [? ?]. cbn. destruct emin; lia. Qed.
    Lemma round_e : e = top b n d - p + 1 \/ emin = Some e.
    Proof.
      unfold e, round. destruct (scale _ _ _ _) as [? ?]. cbn. destruct emin as [lo|]; [|left; lia].
      destruct (Z.max_spec lo (top b n d - p + 1)) as [[_ ->]|[_ ->]]; [left; reflexivity|right; reflexivity].
    Qed.
    (** the scaled number, whose nearest integer [m] is *)
    Lemma round_m : exists n' d', 0 < n' /\ 0 < d' /\ m = rne n' d' /\ (fr n' d' == fr n d / P e)%Q.
    Proof.
      unfold m, e, round.
      set (e1 := match emin with Some z => Z.max z (top b n d - p + 1) | None => top b n d - p + 1 end).
      pose proof (scale_spec e1 n d Hd) as H. destruct (scale b e1 n d) as [n' d']. cbn [fst snd].
      exists n', d'. destruct H as (H1 & H2 & H3). auto.
    Qed.

    Lemma round_range : 0 <= m <= b ^ p.
    Proof.
      destruct round_m as (n' & d' & Hn' & Hd' & -> & E). split; [apply rne_mono_lb; lia|].
      apply rne_mono_ub; [exact Hd'|].
      assert (H : (fr n' d' < inject_Z (b ^ p))%Q).
      { rewrite E. apply Qlt_shift_div_r; [apply P_pos|]. rewrite <- (P_Z p) by lia. rewrite <- P_plus.
        eapply Qlt_le_trans; [apply top_spec; assumption|]. apply P_mono. pose proof round_e_lo. lia. }
      rewrite fr_lt in H by exact Hd'. rewrite <- inject_Z_mult, <- Zlt_Qlt in H. lia.
    Qed.
    Lemma round_lower : (e = top b n d - p + 1) -> b ^ (p - 1) <= m.
    Proof.
      intros Ee. destruct round_m as (n' & d' & Hn' & Hd' & -> & E). apply rne_mono_lb; [exact Hd'|].
      assert (H : (inject_Z (b ^ (p - 1)) <= fr n' d')%Q).
      { rewrite E. apply Qle_shift_div_l; [apply P_pos|]. rewrite <- (P_Z (p - 1)) by lia. rewrite <- P_plus.
        eapply Qle_trans; [|apply top_spec; assumption]. apply P_mono. lia. }
      unfold fr in H. apply (Qmult_le_r _ _ (inject_Z d')) in H; [|apply injZ_pos, Hd'].
      assert (G : (inject_Z n' / inject_Z d' * inject_Z d' == inject_Z n')%Q) by (field; apply injZ_nz, Hd').
      rewrite G, <- inject_Z_mult, <- Zle_Qle in H. lia.
    Qed.

    Theorem round_nearest m' e' : Z.abs m' < b ^ p -> match emin with Some lo => lo <= e' | None => True end ->
      (Qabs (fr n d - digits b m e) <= Qabs (fr n d - digits b m' e'))%Q.
    Proof.
      intros Hm' He'. destruct round_m as (n' & d' & Hn' & Hd' & Em & E).
      assert (Ex : (fr n d == fr n' d' * P e)%Q) by (rewrite E; field; apply P_nz).
      unfold digits. rewrite Ex at 1. rewrite Qabs_scale by apply P_pos.
      destruct (Z_le_gt_dec e e') as [Hle|Hgt].
      - (* a multiple of b^e *)
        assert (Ez : (inject_Z m' * P e' == inject_Z (m' * b ^ (e' - e)) * P e)%Q).
        { replace e' with ((e' - e) + e) at 1 by lia. rewrite P_plus, (P_Z (e' - e)), inject_Z_mult by lia. ring. }
        rewrite Ez, Ex, Qabs_scale by apply P_pos.
        apply Qmult_le_r; [apply P_pos|]. apply fr_abs_le; [exact Hd'|]. rewrite Em. apply rne_nearest, Hd'.
      - (* below the smallest mantissa at this exponent *)
        assert (Ee : e = top b n d - p + 1).
        { destruct round_e as [?|H]; [assumption|]. rewrite H in He'. lia. }
        assert (Hx : (inject_Z (b ^ (p - 1)) <= fr n' d')%Q).
        { rewrite E. apply Qle_shift_div_l; [apply P_pos|]. rewrite <- (P_Z (p - 1)) by lia. rewrite <- P_plus.
          eapply Qle_trans; [|apply top_spec; assumption]. apply P_mono. lia. }
        assert (Hz : (inject_Z m' * P e' <= inject_Z (b ^ (p - 1)) * P e)%Q).
        { apply Qle_trans with (inject_Z (b ^ p) * P e')%Q.
          - apply Qmult_le_r; [apply P_pos|]. rewrite <- Zle_Qle. lia.
          - rewrite <- !P_Z by lia. rewrite <- !P_plus. apply P_mono. lia. }
        assert (H1 : (Qabs (fr n' d' - inject_Z m) <= Qabs (fr n' d' - inject_Z (b ^ (p - 1))))%Q).
        { apply fr_abs_le; [exact Hd'|]. rewrite Em. apply rne_nearest, Hd'. }
        rewrite (Qabs_pos (fr n' d' - inject_Z (b ^ (p - 1)))) in H1 by (apply Qle_minus_iff in Hx; exact Hx).
        apply Qle_trans with ((fr n' d' - inject_Z (b ^ (p - 1))) * P e)%Q.
        { apply Qmult_le_r; [apply P_pos|exact H1]. }
        apply Qle_trans with (fr n d - inject_Z m' * P e')%Q; [|apply Qle_Qabs].
        rewrite Ex. setoid_replace ((fr n' d' - inject_Z (b ^ (p - 1))) * P e)%Q
          with (fr n' d' * P e - inject_Z (b ^ (p - 1)) * P e)%Q by ring.
        set (u := (inject_Z m' * P e')%Q) in *. set (v := (inject_Z (b ^ (p - 1)) * P e)%Q) in *. set (w := (fr n' d' * P e)%Q).
        lra.
    Qed.

    Theorem round_exact m' e' : Z.abs m' < b ^ p -> match emin with Some lo => lo <= e' | None => True end ->
      (fr n d == digits b m' e')%Q -> (digits b m e == fr n d)%Q.
    Proof.
      intros Hm' He' E. pose proof (round_nearest m' e' Hm' He') as H. rewrite <- E in H.
      assert (Z0 : (fr n d - fr n d == 0)%Q) by ring. rewrite Z0 in H. change (Qabs 0) with 0%Q in H.
      apply Qabs_Qle_condition in H. destruct H as [H1 H2].
      set (x := fr n d) in *. set (y := digits b m e) in *. change (-0)%Q with 0%Q in H1. lra.
    Qed.
  End Round.
End Pow.
