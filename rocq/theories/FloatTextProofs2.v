(** The shortest decimal that rounds to a number of a format. *)
From Coq Require Import ZArith List QArith Qpower Qabs Bool Lia Lqa.
From Verif Require Import Base Float FloatSpec FloatProofs FloatProofs2 ConvFloat Literal FloatText FloatTextProofs.
Import ListNotations.
Close Scope Q_scope.
Open Scope Z_scope.

Lemma ten_le : 2 <= 10. Proof. lia. Qed.
Notation P10 := (Qpower (inject_Z 10)).
Lemma P10_pos e : (0 < P10 e)%Q. Proof. apply (P_pos 10 ten_le). Qed.
Lemma scale_digits c g : let '(a, b) := scale 10 (- g) c 1 in 0 < b /\ (0 < c -> 0 < a) /\ (c = 0 -> a = 0) /\ (fr a b == digits 10 c g)%Q.
Proof.
  pose proof (scale_spec 10 ten_le (- g) c 1 ltac:(lia)) as H. destruct (scale 10 (- g) c 1) as [a b] eqn:E. destruct H as (H1 & H2 & H3).
  split; [exact H1|]. split; [exact H2|]. split.
  - intros ->. unfold scale in E. destruct (0 <=? - g); inversion E; reflexivity.
  - rewrite H3. unfold digits, fr. change (inject_Z 1) with 1%Q. rewrite (P_opp 10 g). field. apply (P_nz 10 ten_le).
Qed.
Lemma digits10_pos c g : 0 < c -> (0 < digits 10 c g)%Q.
Proof. intros H. unfold digits. apply Qmult_lt_0_compat; [apply injZ_pos, H|apply P10_pos]. Qed.
Lemma digits10_le a b g : a <= b <-> (digits 10 a g <= digits 10 b g)%Q.
Proof. unfold digits. rewrite Qmult_le_r by apply P10_pos. rewrite <- Zle_Qle. tauto. Qed.
Lemma digits10_shift m k e : 0 <= k -> (digits 10 m (k + e) == digits 10 (m * 10 ^ k) e)%Q.
Proof. intros H. unfold digits. rewrite (P_plus 10 ten_le), (P_Z 10 k H), inject_Z_mult. ring. Qed.
Lemma Qlt_mult_inv a b : (0 < a)%Q -> (a * b > 0)%Q -> (0 < b)%Q.
Proof. intros H L. destruct (Qlt_le_dec 0 b) as [X|X]; [exact X|]. exfalso. apply (Qmult_le_compat_r _ _ a) in X; [|lra]. lra. Qed.

Section Fmt.
  Variable f : fmt.
  Hypotheses (Hp : 1 <= fp f) (He : femin f <= femax f).
  Variables n d : Z.
  Hypotheses (Hn : 0 < n) (Hd : 0 < d).
  Let q := fr n d.
  Hypothesis R : representable f q.
  Let Hq : (0 < q)%Q. Proof. apply fr_pos; assumption. Qed.

  Lemma reads_back_iff c g : 0 <= c -> reads_back f n d c g = true <-> 0 < c /\ (rv f (digits 10 c g) == q)%Q.
  Proof.
    intros Hc. unfold reads_back. pose proof (scale_digits c g) as H. destruct (scale 10 (- g) c 1) as [a b]. destruct H as (H1 & H2 & H3 & H4).
    destruct (Z.eq_dec c 0) as [C0|C0].
    - rewrite (H3 C0). cbn [to_fmt Z.eqb]. split; [|lia]. pose proof (frac_spec 0 (femin f)) as (F1 & F2 & F3 & F4).
      destruct (frac 0 (femin f)) as [p r]. cbn [fst snd] in *. rewrite (F4 eq_refl). intros E. apply Z.eqb_eq in E. nia.
    - assert (Pc : 0 < c) by lia. pose proof (to_fmt_rv f Hp He false a b q (H2 Pc) H1 R) as T. cbn iota in T.
      assert (W : (rv f (fr a b) == rv f (digits 10 c g))%Q) by (apply rv_wd; [apply fr_pos; auto|exact H4]).
      rewrite <- W, <- T. destruct (to_fmt f false a b) as [|?|neg m e] eqn:Et.
      + cbn. split; [discriminate|tauto].
      + cbn. split; [discriminate|tauto].
      + assert (neg = false) as ->.
        { rewrite to_fmt_unfold in Et by auto. cbn zeta in Et. destruct (femax f <? _); [discriminate|]. injection Et as <- _ _. reflexivity. }
        cbn [denotes]. pose proof (frac_spec m e) as (F1 & F2 & _). destruct (frac m e) as [p r]. cbn [fst snd] in *. rewrite <- F2.
        rewrite Z.eqb_eq. unfold q. split.
        * intros E. split; [exact Pc|]. apply fr_cross; try assumption. lia.
        * intros [_ E]. apply (proj1 (fr_cross n d p r Hd F1)) in E. lia.
  Qed.

  Let t := top 10 n d.
  Let Ht1 : (P10 t <= q)%Q. Proof. apply top_spec; [lia|assumption|assumption]. Qed.
  Let Ht2 : (q < P10 (t + 1))%Q. Proof. apply top_spec; [lia|assumption|assumption]. Qed.

  (** the two candidates with [k] digits *)
  Definition cut (k : Z) : Z := let '(n', d') := scale 10 (t - k + 1) n d in n' / d'.
  Definition cut_up (k : Z) : Z := let '(n', d') := scale 10 (t - k + 1) n d in if n' mod d' =? 0 then n' / d' else n' / d' + 1.
  Definition mid (k : Z) : Z := let '(n', d') := scale 10 (t - k + 1) n d in rne n' d'.
  Lemma candidates k : exists n' d', 0 < n' /\ 0 < d' /\ scale 10 (t - k + 1) n d = (n', d') /\ (fr n' d' * P10 (t - k + 1) == q)%Q.
  Proof.
    pose proof (scale_spec 10 ten_le (t - k + 1) n d Hd) as H. destruct (scale 10 (t - k + 1) n d) as [n' d']. destruct H as (H1 & H2 & H3).
    exists n', d'. split; [auto|]. split; [exact H1|]. split; [reflexivity|]. rewrite H3. unfold q. field. apply (P_nz 10 ten_le).
  Qed.
  Lemma fr_le_int n' d' j : 0 < d' -> (fr n' d' <= inject_Z j)%Q <-> n' <= d' * j.
  Proof. intros H. rewrite fr_le by exact H. rewrite <- inject_Z_mult, <- Zle_Qle. lia. Qed.
  Lemma int_le_fr n' d' j : 0 < d' -> (inject_Z j <= fr n' d')%Q <-> d' * j <= n'.
  Proof.
    intros H. split; intros L.
    - destruct (Z_le_gt_dec (d' * j) n') as [|G]; [assumption|exfalso]. assert (X : (fr n' d' < inject_Z j)%Q); [|lra].
      rewrite fr_lt by exact H. rewrite <- inject_Z_mult, <- Zlt_Qlt. lia.
    - apply Qnot_lt_le. intros X. rewrite fr_lt in X by exact H. rewrite <- inject_Z_mult, <- Zlt_Qlt in X. lia.
  Qed.
  (** the first is the largest number on the grid that is not above, the second the least that is not below *)
  Lemma cut_spec k j : j <= cut k <-> (digits 10 j (t - k + 1) <= q)%Q.
  Proof.
    destruct (candidates k) as (n' & d' & H1 & H2 & H3 & H4). unfold cut. rewrite H3. unfold digits. rewrite <- H4.
    rewrite Qmult_le_r by apply P10_pos. rewrite int_le_fr by exact H2. split; intros L.
    - pose proof (Z.mul_div_le n' d' H2). nia.
    - apply Z.div_le_lower_bound; lia.
  Qed.
  Lemma cut_up_spec k j : cut_up k <= j <-> (q <= digits 10 j (t - k + 1))%Q.
  Proof.
    destruct (candidates k) as (n' & d' & H1 & H2 & H3 & H4). unfold cut_up. rewrite H3. unfold digits. rewrite <- H4.
    rewrite Qmult_le_r by apply P10_pos. rewrite fr_le_int by exact H2. pose proof (Z.div_mod n' d' ltac:(lia)) as D. pose proof (Z.mod_pos_bound n' d' H2) as B.
    destruct (n' mod d' =? 0) eqn:C; [apply Z.eqb_eq in C|apply Z.eqb_neq in C]; split; intros L; nia.
  Qed.
  Lemma mid_cases k : mid k = cut k \/ mid k = cut_up k.
  Proof.
    destruct (candidates k) as (n' & d' & H1 & H2 & H3 & H4). unfold mid, cut, cut_up. rewrite H3. unfold rne.
    pose proof (Z.mod_pos_bound n' d' H2) as B.
    destruct (n' mod d' =? 0) eqn:C; [apply Z.eqb_eq in C; left; rewrite C; destruct (2 * 0 <? d') eqn:X; [reflexivity|lia]|].
    destruct (2 * (n' mod d') <? d'); [auto|]. destruct (d' <? 2 * (n' mod d')); [auto|]. destruct (Z.even _); auto.
  Qed.
  Lemma mid_nearest k j : (Qabs (q - digits 10 (mid k) (t - k + 1)) <= Qabs (q - digits 10 j (t - k + 1)))%Q.
  Proof.
    destruct (candidates k) as (n' & d' & H1 & H2 & H3 & H4). unfold mid. rewrite H3. unfold digits. rewrite <- H4.
    rewrite !Qabs_scale by apply P10_pos. apply Qmult_le_r; [apply P10_pos|]. apply fr_abs_le; [exact H2|]. apply rne_nearest, H2.
  Qed.
  Lemma mid_half k : (Qabs (digits 10 (mid k) (t - k + 1) - q) <= (1 # 2) * P10 (t - k + 1))%Q.
  Proof.
    destruct (candidates k) as (n' & d' & H1 & H2 & H3 & H4). unfold mid. rewrite H3. unfold digits. rewrite <- H4.
    rewrite Qabs_scale by apply P10_pos. apply Qmult_le_r; [apply P10_pos|]. rewrite Qabs_Qminus.
    pose proof (rne_bound n' d' H2) as B.
    assert (G : (Qabs (fr n' d' - inject_Z (rne n' d')) * inject_Z d' == inject_Z (Z.abs (n' - d' * rne n' d')))%Q).
    { rewrite injZ_abs. rewrite <- (Qabs_scale _ _ _ (injZ_pos d' H2)). apply Qabs_wd. unfold fr, Zminus. rewrite inject_Z_plus, inject_Z_opp, inject_Z_mult. field. apply injZ_nz, H2. }
    apply (Qmult_le_r _ _ (inject_Z d')); [apply injZ_pos, H2|]. rewrite G. rewrite Zle_Qle in B. rewrite inject_Z_mult in B. change (inject_Z 2) with 2%Q in B. lra.
  Qed.
  Lemma cut_pos k : 1 <= k -> 10 ^ (k - 1) <= cut k.
  Proof.
    intros Hk. apply cut_spec. eapply Qle_trans; [|exact Ht1]. unfold digits. rewrite <- (P_Z 10 (k - 1)) by lia. rewrite <- (P_plus 10 ten_le).
    replace (k - 1 + (t - k + 1)) with t by lia. apply Qle_refl.
  Qed.
  Lemma cut_le_up k : cut k <= cut_up k.
  Proof. unfold cut, cut_up. destruct (scale 10 (t - k + 1) n d) as [n' d']. destruct (_ =? 0); lia. Qed.
  Lemma cut_up_max k : 0 <= k -> cut_up k <= 10 ^ k.
  Proof.
    intros Hk. apply cut_up_spec. apply Qlt_le_weak. eapply Qlt_le_trans; [exact Ht2|]. unfold digits. rewrite <- (P_Z 10 k) by lia. rewrite <- (P_plus 10 ten_le).
    replace (k + (t - k + 1)) with (t + 1) by lia. apply Qle_refl.
  Qed.

  (** if any decimal with [k] digits reads back, one of the two candidates does, and is nearer *)
  Lemma some_candidate k y : 1 <= k -> (0 < y)%Q -> short 10 k y -> (rv f y == q)%Q ->
    (y <= digits 10 (cut k) (t - k + 1) /\ rv f (digits 10 (cut k) (t - k + 1)) == q)%Q \/
    (digits 10 (cut_up k) (t - k + 1) <= y /\ rv f (digits 10 (cut_up k) (t - k + 1)) == q)%Q.
  Proof.
    intros Hk Hy (m & e' & Hm & E) Ry. set (g := t - k + 1) in *.
    pose proof (cut_pos k Hk) as Cp. pose proof (Z.pow_pos_nonneg 10 (k - 1) ltac:(lia) ltac:(lia)) as P1. pose proof (cut_le_up k) as Cu.
    assert (D1 : (digits 10 (cut k) g <= q)%Q) by (apply cut_spec; lia). assert (D2 : (q <= digits 10 (cut_up k) g)%Q) by (apply cut_up_spec; lia).
    assert (Y1 : (0 < digits 10 (cut k) g)%Q) by (apply digits10_pos; lia). assert (Y2 : (0 < digits 10 (cut_up k) g)%Q) by (apply digits10_pos; lia).
    assert (Low : g > e' -> (y <= P10 t)%Q).
    { intros G. rewrite E. apply Qle_trans with (digits 10 (10 ^ k) e'); [apply digits10_le; lia|]. unfold digits. rewrite <- (P_Z 10 k) by lia. rewrite <- (P_plus 10 ten_le).
      apply (P_mono 10 ten_le). unfold g in G. lia. }
    assert (Cp' : (P10 t <= digits 10 (cut k) g)%Q).
    { apply Qle_trans with (digits 10 (10 ^ (k - 1)) g); [|apply digits10_le; exact Cp]. unfold digits. rewrite <- (P_Z 10 (k - 1)) by lia. rewrite <- (P_plus 10 ten_le).
      apply (P_mono 10 ten_le). unfold g. lia. }
    destruct (Z_le_gt_dec g e') as [G|G].
    - assert (Ez : (y == digits 10 (m * 10 ^ (e' - g)) g)%Q).
      { rewrite E. replace e' with ((e' - g) + g) at 1 by lia. apply digits10_shift. lia. }
      destruct (Qlt_le_dec q y) as [L|L].
      + right. assert (L' : cut_up k <= m * 10 ^ (e' - g)) by (apply cut_up_spec; fold g; lra).
        assert (L'' : (digits 10 (cut_up k) g <= y)%Q) by (rewrite Ez; apply digits10_le; exact L').
        split; [exact L''|]. rewrite (rv_convex f Hp y); [exact Ry|exact Hy|exact Y2|]. right. rewrite Ry. split; [exact D2|exact L''].
      + left. assert (L' : m * 10 ^ (e' - g) <= cut k) by (apply cut_spec; fold g; lra).
        assert (L'' : (y <= digits 10 (cut k) g)%Q) by (rewrite Ez; apply digits10_le; exact L').
        split; [exact L''|]. rewrite (rv_convex f Hp y); [exact Ry|exact Hy|exact Y1|]. left. rewrite Ry. split; [exact L''|exact D1].
    - left. assert (L'' : (y <= digits 10 (cut k) g)%Q) by (specialize (Low G); lra).
      split; [exact L''|]. rewrite (rv_convex f Hp y); [exact Ry|exact Hy|exact Y1|]. left. rewrite Ry. split; [exact L''|exact D1].
  Qed.

  (** enough digits *)
  Lemma enough k : 1 <= k -> 2 ^ fp f < 10 ^ (k - 1) -> (rv f (digits 10 (mid k) (t - k + 1)) == q)%Q.
  Proof.
    intros Hk B. pose proof (rv_canon f Hp q Hq) as C. pose proof (rv_exact f Hp q Hq (rep_grid f Hp q R)) as X.
    unfold rv in X. destruct (rnd f q) as [m e] eqn:Er. cbn [fst snd] in X. destruct C as (C1 & C2 & C3).
    assert (Pm : 0 < m).
    { destruct (Z.eq_dec m 0) as [M0|M0]; [|lia]. exfalso. rewrite M0 in X. unfold digits in X. change (inject_Z 0) with 0%Q in X. rewrite Qmult_0_l in X. lra. }
    pose proof (P_pos 2 two_le e) as P2e.
    assert (Sm : forall u, 0 < u -> m <= u -> (P10 (t - k + 1) * inject_Z (10 ^ (k - 1)) <= inject_Z u * Qpower (inject_Z 2) e)%Q).
    { intros u Hu Hmu. rewrite <- (P_Z 10 (k - 1)) by lia. rewrite <- (P_plus 10 ten_le). replace (t - k + 1 + (k - 1)) with t by lia.
      eapply Qle_trans; [exact Ht1|]. rewrite <- X. unfold digits. apply Qmult_le_r; [exact P2e|]. rewrite <- Zle_Qle. exact Hmu. }
    assert (Y : (0 < digits 10 (mid k) (t - k + 1))%Q).
    { apply digits10_pos. pose proof (cut_pos k Hk). pose proof (cut_le_up k). pose proof (Z.pow_pos_nonneg 10 (k - 1) ltac:(lia) ltac:(lia)). destruct (mid_cases k) as [->| ->]; lia. }
    rewrite (close_rounds f Hp m e _ ltac:(tauto) ltac:(lia) C2 Y); [exact X|].
    pose proof (mid_half k) as Hh. rewrite X. eapply Qle_lt_trans; [exact Hh|].
    assert (T : (Qpower (inject_Z 2) e == 2 * Qpower (inject_Z 2) (e - 1))%Q).
    { replace e with (1 + (e - 1)) at 1 by lia. rewrite (P_plus 2 two_le). reflexivity. }
    pose proof (P10_pos (t - k + 1)) as P10g.
    assert (G : (P10 (t - k + 1) < Qpower (inject_Z 2) (if m =? 2 ^ (fp f - 1) then e - 1 else e))%Q); [|lra].
    assert (Fin : forall u w, 0 < u -> u < 10 ^ (k - 1) -> (P10 (t - k + 1) * inject_Z (10 ^ (k - 1)) <= inject_Z u * w)%Q -> (0 < w)%Q -> (P10 (t - k + 1) < w)%Q).
    { intros u w Hu Hlt Hle Hw. apply Qnot_le_lt. intros Bad.
      assert (X1 : (inject_Z u * w < inject_Z (10 ^ (k - 1)) * w)%Q) by (apply Qmult_lt_r; [exact Hw|]; rewrite <- Zlt_Qlt; exact Hlt).
      assert (X2 : (w * inject_Z (10 ^ (k - 1)) <= P10 (t - k + 1) * inject_Z (10 ^ (k - 1)))%Q) by (apply Qmult_le_compat_r; [exact Bad|]; change 0%Q with (inject_Z 0); rewrite <- Zle_Qle; lia).
      lra. }
    destruct (m =? 2 ^ (fp f - 1)) eqn:M.
    - apply Z.eqb_eq in M. assert (E2 : 2 ^ fp f = m * 2) by (rewrite M; change 2 with (2 ^ 1) at 3; rewrite <- Z.pow_add_r by lia; f_equal; lia).
      apply (Fin (2 ^ fp f)); [lia|exact B| |apply (P_pos 2 two_le)].
      specialize (Sm m Pm (Z.le_refl m)). rewrite T in Sm. rewrite E2, inject_Z_mult. change (inject_Z 2) with 2%Q in *. lra.
    - apply (Fin m); [exact Pm|lia|apply Sm; lia|exact P2e].
  Qed.

  Definition good (k : Z) : Prop := (rv f (digits 10 (cut k) (t - k + 1)) == q)%Q \/ (rv f (digits 10 (cut_up k) (t - k + 1)) == q)%Q.
  Lemma cut_rb k : 1 <= k -> (reads_back f n d (cut k) (t - k + 1) = true <-> (rv f (digits 10 (cut k) (t - k + 1)) == q)%Q).
  Proof.
    intros Hk. pose proof (cut_pos k Hk). pose proof (Z.pow_pos_nonneg 10 (k - 1) ltac:(lia) ltac:(lia)). rewrite reads_back_iff by lia. split; [tauto|]. intros; split; [lia|assumption].
  Qed.
  Lemma cut_up_rb k : 1 <= k -> (reads_back f n d (cut_up k) (t - k + 1) = true <-> (rv f (digits 10 (cut_up k) (t - k + 1)) == q)%Q).
  Proof.
    intros Hk. pose proof (cut_pos k Hk). pose proof (cut_le_up k). pose proof (Z.pow_pos_nonneg 10 (k - 1) ltac:(lia) ltac:(lia)). rewrite reads_back_iff by lia. split; [tauto|]. intros; split; [lia|assumption].
  Qed.
  Lemma shortest_gen fuel : forall k, 1 <= k -> good (k + Z.of_nat fuel) ->
    exists k', k <= k' <= k + Z.of_nat fuel /\ good k' /\ (forall k0, k <= k0 < k' -> ~ good k0) /\
      ((k' < k + Z.of_nat fuel) -> let '(c, g) := shortest f n d fuel k in
      g = t - k' + 1 /\ (c = cut k' \/ c = cut_up k') /\ (rv f (digits 10 c g) == q)%Q /\
        (c <> mid k' -> ~ ((rv f (digits 10 (cut k') g) == q)%Q /\ (rv f (digits 10 (cut_up k') g) == q)%Q))).
  Proof.
    induction fuel as [|fuel IH]; intros k Hk G.
    - exists k. rewrite Z.add_0_r in G. split; [lia|]. split; [exact G|]. split; [lia|]. cbn [Z.of_nat]. lia.
    - pose proof (cut_rb k Hk) as A. pose proof (cut_up_rb k Hk) as B.
      destruct (candidates k) as (n' & d' & H1 & H2 & H3 & H4).
      assert (Es : shortest f n d (S fuel) k =
        if reads_back f n d (cut k) (t - k + 1) && reads_back f n d (cut_up k) (t - k + 1) then (mid k, t - k + 1)
        else if reads_back f n d (cut k) (t - k + 1) then (cut k, t - k + 1)
        else if reads_back f n d (cut_up k) (t - k + 1) then (cut_up k, t - k + 1) else shortest f n d fuel (k + 1)).
      { cbn [shortest]. fold t. unfold cut, cut_up, mid. rewrite H3. reflexivity. }
      rewrite Es. destruct (reads_back f n d (cut k) (t - k + 1)) eqn:Ra.
      { exists k. split; [lia|]. split; [left; apply A; reflexivity|]. split; [lia|]. intros _.
        destruct (reads_back f n d (cut_up k) (t - k + 1)) eqn:Rb; cbn [andb].
        - split; [reflexivity|]. split; [apply mid_cases|]. split; [destruct (mid_cases k) as [->| ->]; [apply A|apply B]; reflexivity|congruence].
        - split; [reflexivity|]. split; [auto|]. split; [apply A; reflexivity|]. intros _ [_ X]. apply B in X. congruence. }
      cbn [andb]. destruct (reads_back f n d (cut_up k) (t - k + 1)) eqn:Rb.
      { exists k. split; [lia|]. split; [right; apply B; reflexivity|]. split; [lia|]. intros _.
        split; [reflexivity|]. split; [auto|]. split; [apply B; reflexivity|]. intros _ [X _]. apply A in X. congruence. }
      assert (Nk : ~ good k) by (intros [X|X]; [apply A in X|apply B in X]; congruence).
      destruct (IH (k + 1)) as (k' & K1 & K2 & K3 & K4); [lia|replace (k + 1 + Z.of_nat fuel) with (k + Z.of_nat (S fuel)) by lia; exact G|].
      exists k'. split; [lia|]. split; [exact K2|]. split; [|intros L; apply K4; lia].
      intros k0 L. destruct (Z.eq_dec k0 k) as [->|]; [exact Nk|]. apply K3. lia.
  Qed.

  Theorem shortest_spec (K : nat) : 2 ^ fp f < 10 ^ (Z.of_nat K - 1) -> (1 <= K)%nat ->
    let '(c, g) := shortest f n d K 1 in
    exists k, 1 <= k <= Z.of_nat K /\ g = top 10 n d - k + 1 /\ 0 < c /\ c <= 10 ^ k /\ (rv f (digits 10 c g) == q)%Q /\
      (forall k' y, k' < k -> (0 < y)%Q -> short 10 k' y -> ~ (rv f y == q)%Q) /\
      (forall y, (0 < y)%Q -> short 10 k y -> (rv f y == q)%Q -> (Qabs (q - digits 10 c g) <= Qabs (q - y))%Q).
  Proof.
    intros B HK. destruct (shortest_gen K 1 ltac:(lia)) as (k & K1 & K2 & K3 & K4).
    { pose proof (enough (1 + Z.of_nat K) ltac:(lia)) as En. destruct (mid_cases (1 + Z.of_nat K)) as [E|E]; rewrite E in En; [left|right]; apply En;
      (apply (Z.lt_le_trans _ _ _ B), Z.pow_le_mono_r; lia). }
    assert (Le : k < 1 + Z.of_nat K).
    { destruct (Z_lt_le_dec k (1 + Z.of_nat K)) as [|L]; [assumption|exfalso]. apply (K3 (Z.of_nat K)); [lia|].
      pose proof (enough (Z.of_nat K) ltac:(lia) B) as En. destruct (mid_cases (Z.of_nat K)) as [E|E]; rewrite E in En; [left|right]; exact En. }
    specialize (K4 Le). destruct (shortest f n d K 1) as [c g]. destruct K4 as (Eg & Ec & Rc & Nm). exists k.
    pose proof (cut_pos k ltac:(lia)) as Cp. pose proof (cut_le_up k) as Cu. pose proof (cut_up_max k ltac:(lia)) as Cm. pose proof (Z.pow_pos_nonneg 10 (k - 1) ltac:(lia) ltac:(lia)) as Pk.
    split; [lia|]. split; [exact Eg|]. split; [destruct Ec; lia|]. split; [destruct Ec; lia|]. split; [exact Rc|]. split.
    - intros k' y L Hy S1 Ry. destruct (Z_lt_le_dec k' 1) as [Lk|Lk].
      + destruct S1 as (m & e & Hm & E). assert (M0 : m = 0). { destruct (Z.eq_dec k' 0) as [->|]; [change (10 ^ 0) with 1 in Hm; lia|rewrite (Z.pow_neg_r 10 k') in Hm by lia; lia]. }
        rewrite M0 in E. unfold digits in E. change (inject_Z 0) with 0%Q in E. rewrite Qmult_0_l in E. lra.
      + apply (K3 k'); [lia|]. destruct (some_candidate k' y Lk Hy S1 Ry) as [[_ X]|[_ X]]; [left|right]; exact X.
    - intros y Hy S1 Ry. subst g. set (g := t - k + 1) in *.
      assert (D1 : (digits 10 (cut k) g <= q)%Q) by (apply cut_spec; lia). assert (D2 : (q <= digits 10 (cut_up k) g)%Q) by (apply cut_up_spec; lia).
      assert (Cand : forall c', c' = cut k \/ c' = cut_up k -> (rv f (digits 10 c' g) == q)%Q -> (Qabs (q - digits 10 c g) <= Qabs (q - digits 10 c' g))%Q).
      { intros c' Hc' Rc'. destruct (Z.eq_dec c (mid k)) as [->|Nc]; [apply mid_nearest|]. specialize (Nm Nc).
        assert (Es : c' = c) by (destruct Ec as [E1|E1], Hc' as [E2|E2]; subst; tauto). rewrite Es. apply Qle_refl. }
      destruct (some_candidate k y ltac:(lia) Hy S1 Ry) as [[Y X]|[Y X]]; fold g in X, Y.
      + eapply Qle_trans; [apply (Cand (cut k)); [auto|exact X]|]. rewrite !Qabs_pos by lra. lra.
      + eapply Qle_trans; [apply (Cand (cut_up k)); [auto|exact X]|]. rewrite !Qabs_neg by lra. lra.
  Qed.
End Fmt.
