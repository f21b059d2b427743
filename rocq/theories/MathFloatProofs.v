(** Proofs about MathFloat.v. *)
From Coq Require Import ZArith List QArith Qabs Qpower Lia Lqa ZifyBool Setoid.
From Verif Require Import Base Iter GoInt Conv Float FloatSpec FloatProofs FloatProofs2 ConvFloat ConvFloatSpec ConvFloatProofs ConvFloatProofs2 Big MathInt Stream
  MathFloat MathFloatSpec.
Close Scope Q_scope.
Open Scope Z_scope.

Lemma rne_over n d p : 1 <= p -> 0 < d -> (2 ^ p - 1) * d < n < 2 ^ p * d -> rne n d = if 2 * n <? (2 ^ (p + 1) - 1) * d then 2 ^ p - 1 else 2 ^ p.
Proof.
  intros Hp Hd H. assert (E2 : 2 ^ (p + 1) = 2 * 2 ^ p) by (rewrite Z.pow_add_r by lia; lia).
  assert (Q1 : n / d = 2 ^ p - 1) by (symmetry; apply Z.div_unique with (r := n - (2 ^ p - 1) * d); [left|]; nia).
  assert (R1 : n mod d = n - (2 ^ p - 1) * d) by (rewrite Z.mod_eq by lia; rewrite Q1; lia).
  assert (Ev : Z.even (2 ^ p - 1) = false).
  { rewrite Z.even_sub. rewrite Z.even_pow by lia. reflexivity. }
  unfold rne. rewrite Q1, R1, Ev.
  destruct (2 * n <? (2 ^ (p + 1) - 1) * d) eqn:C.
  - replace (2 * (n - (2 ^ p - 1) * d) <? d) with true by lia. reflexivity.
  - replace (2 * (n - (2 ^ p - 1) * d) <? d) with false by lia. destruct (d <? _); lia.
Qed.

Section Over.
  Variable f : fmt.
  Hypothesis Hp : 1 <= fp f.
  Hypothesis He : femin f <= femax f.

  Lemma to_fmt_over neg n d : 0 < n -> 0 < d -> (digits 2 (2 ^ fp f - 1) (femax f) < fr n d)%Q ->
    ((fr n d < threshold f)%Q -> to_fmt f neg n d = Fin neg (2 ^ fp f - 1) (femax f)) /\
    ((threshold f <= fr n d)%Q -> to_fmt f neg n d = Inf neg).
  Proof.
    intros Hn Hd Hm. pose proof (top_spec 2 two_le n d Hn Hd) as [T1 T2].
    assert (Pp : 0 < 2 ^ (fp f - 1)) by (apply Z.pow_pos_nonneg; lia).
    assert (Pe : 2 ^ fp f = 2 * 2 ^ (fp f - 1)) by (replace (fp f) with (1 + (fp f - 1)) at 1 by lia; rewrite Z.pow_add_r by lia; lia).
    assert (Th : (threshold f == (digits 2 (2 ^ fp f - 1) (femax f) + (1#2) * Qpower 2 (femax f)))%Q).
    { unfold threshold, digits. change (inject_Z 2) with 2%Q. replace (femax f) with ((femax f - 1) + 1) at 2 3 by lia.
      rewrite Qpower_plus by discriminate. change (2 ^ 1)%Q with 2%Q.
      rewrite Z.pow_add_r by lia. change (2 ^ 1) with 2.
      assert (I1 : (inject_Z (2 ^ fp f * 2 - 1) == 2 * inject_Z (2 ^ fp f) - 1)%Q) by (unfold Z.sub; rewrite inject_Z_plus, inject_Z_mult; change (inject_Z 2) with 2%Q; change (inject_Z (-(1))) with (-(1))%Q; ring).
      assert (I2 : (inject_Z (2 ^ fp f - 1) == inject_Z (2 ^ fp f) - 1)%Q) by (unfold Z.sub; rewrite inject_Z_plus; change (inject_Z (-(1))) with (-(1))%Q; ring).
      rewrite I1, I2. ring. }
    assert (T3 : fp f - 1 + femax f <= top 2 n d).
    { assert (L : (Qpower (inject_Z 2) (fp f - 1 + femax f) < Qpower (inject_Z 2) (top 2 n d + 1))%Q).
      { eapply Qle_lt_trans; [|exact T2]. eapply Qle_trans; [|apply Qlt_le_weak, Hm].
        rewrite P_plus by exact two_le. rewrite (P_Z 2 (fp f - 1)) by lia. 
        unfold digits. apply Qmult_le_compat_r; [|apply Qlt_le_weak, P_pos, two_le]. rewrite <- Zle_Qle. lia. }
      apply P2_lt_inv in L. lia. }
    rewrite to_fmt_unfold by lia. cbn zeta.
    set (r := round 2 (fp f) (Some (femin f)) n d).
    assert (Sr : snd r = top 2 n d - fp f + 1).
    { pose proof (round_e_lo 2 (fp f) (Some (femin f)) n d) as Lo. fold r in Lo.
      pose proof (round_e 2 (fp f) (Some (femin f)) n d) as Re. fold r in Re. destruct Re as [Re|Re]; [exact Re|]. injection Re as Re. lia. }
    destruct (round_m 2 two_le (fp f) (Some (femin f)) n d Hn Hd) as (n' & d' & Hn' & Hd' & Em & Ef). fold r in Em, Ef.
    destruct (Z.eq_dec (top 2 n d) (fp f - 1 + femax f)) as [Et|Nt].
    - assert (Es : snd r = femax f) by lia. rewrite Es in Ef.
      assert (Pf : (0 < Qpower (inject_Z 2) (femax f))%Q) by (apply P_pos, two_le).
      assert (Ef' : (fr n d == fr n' d' * Qpower (inject_Z 2) (femax f))%Q) by (rewrite Ef; field; intros Z0; rewrite Z0 in Pf; discriminate).
      assert (B1 : (2 ^ fp f - 1) * d' < n').
      { unfold digits in Hm. rewrite Ef' in Hm. apply Qmult_lt_r in Hm; [|exact Pf].
        assert (H : ~ (fr n' d' <= inject_Z (2 ^ fp f - 1))%Q) by (apply Qlt_not_le; exact Hm).
        rewrite fr_le in H by exact Hd'. rewrite <- inject_Z_mult, <- Zle_Qle in H. lia. }
      assert (B2 : n' < 2 ^ fp f * d').
      { rewrite Et in T2. replace (fp f - 1 + femax f + 1) with (fp f + femax f) in T2 by lia. rewrite P_plus in T2 by exact two_le.
        rewrite (P_Z 2 (fp f)) in T2 by lia. rewrite Ef' in T2. apply Qmult_lt_r in T2; [|exact Pf].
        rewrite fr_lt in T2 by exact Hd'. rewrite <- inject_Z_mult, <- Zlt_Qlt in T2. exact T2. }
      pose proof (rne_over n' d' (fp f) Hp Hd' (conj B1 B2)) as Rn. rewrite <- Em in Rn.
      assert (Cmp : (fr n d < threshold f)%Q <-> 2 * n' < (2 ^ (fp f + 1) - 1) * d').
      { rewrite Th, Ef'. unfold digits. 
        assert (E : (inject_Z (2 ^ fp f - 1) * inject_Z 2 ^ femax f + (1 # 2) * 2 ^ femax f == (inject_Z (2 ^ fp f - 1) + (1#2)) * inject_Z 2 ^ femax f)%Q) by (change (inject_Z 2) with 2%Q; ring).
        rewrite E. rewrite Qmult_lt_r by exact Pf. rewrite fr_lt by exact Hd'.
        assert (E3 : 2 ^ (fp f + 1) = 2 * 2 ^ fp f) by (rewrite Z.pow_add_r by lia; lia). rewrite E3.
        assert (E4 : ((inject_Z (2 ^ fp f - 1) + (1 # 2)) * inject_Z d' == (1#2) * inject_Z ((2 * 2 ^ fp f - 1) * d'))%Q).
        { rewrite inject_Z_mult. unfold Z.sub. rewrite !inject_Z_plus, inject_Z_mult. change (inject_Z 2) with 2%Q. change (inject_Z (-(1))) with (-(1))%Q. field. }
        rewrite E4. rewrite Zlt_Qlt. assert (E5 : (inject_Z (2 * n') == 2 * inject_Z n')%Q) by (rewrite inject_Z_mult; reflexivity).
        rewrite E5. generalize (inject_Z ((2 * 2 ^ fp f - 1) * d')) (inject_Z n'). intros; split; intros; lra. }
      split; intros Hth.
      + apply Cmp in Hth. rewrite (proj2 (Z.ltb_lt _ _) Hth) in Rn. unfold normal. rewrite Rn. rewrite (proj2 (Z.eqb_neq (2 ^ fp f - 1) (2 ^ fp f))) by lia.
        rewrite Es. rewrite Z.ltb_irrefl. rewrite Rn. reflexivity.
      + assert (Hth' : ~ 2 * n' < (2 ^ (fp f + 1) - 1) * d') by (intros X; apply Cmp in X; apply Qlt_not_le in X; apply X; exact Hth).
        rewrite (proj2 (Z.ltb_ge _ _)) in Rn by lia. unfold normal. rewrite Rn, Z.eqb_refl. cbn [fst snd]. rewrite Es.
        rewrite (proj2 (Z.ltb_lt _ _)) by lia. reflexivity.
    - assert (Gt : femax f < snd r) by lia.
      assert (Big : (threshold f <= fr n d)%Q).
      { eapply Qle_trans; [|exact T1]. eapply Qle_trans; [|apply (P_mono 2 two_le (fp f + femax f)); lia].
        rewrite P_plus by exact two_le. rewrite (P_Z 2 (fp f)) by lia. rewrite Th. unfold digits. change (inject_Z 2) with 2%Q.
        assert (Pf : (0 < Qpower 2 (femax f))%Q) by (apply (P_pos 2 two_le)).
        assert (I2 : (inject_Z (2 ^ fp f - 1) == inject_Z (2 ^ fp f) - 1)%Q) by (unfold Z.sub; rewrite inject_Z_plus; change (inject_Z (-(1))) with (-(1))%Q; ring).
        rewrite I2. lra. }
      split; intros Hth.
      + exfalso. apply Qlt_not_le in Hth. apply Hth, Big.
      + assert (snd (normal f r) >= snd r) by (unfold normal; destruct (fst r =? _); cbn [snd]; lia).
        rewrite (proj2 (Z.ltb_lt _ _)) by lia. reflexivity.
  Qed.
End Over.

Lemma to_fmt_sign f neg n d : sign_bit (to_fmt f neg n d) = neg.
Proof.
  unfold to_fmt. destruct (n =? 0); [reflexivity|]. destruct (round _ _ _ _ _) as [m e]. destruct (m =? _); destruct (_ <? _); reflexivity.
Qed.
Lemma Qnum_sign q q' : (q == q')%Q -> (Qnum q <? 0) = (Qnum q' <? 0).
Proof.
  unfold Qeq. intros H. destruct (Qnum q <? 0) eqn:A, (Qnum q' <? 0) eqn:B; try reflexivity; exfalso; nia.
Qed.
Lemma rounded_eq s q q' x : (q == q')%Q -> rounded s q x -> rounded s q' x.
Proof.
  intros E (A & B & C & D). pose proof (Qnum_sign q q' E) as Sg. assert (Ea : (Qabs q == Qabs q')%Q) by (rewrite E; reflexivity).
  unfold rounded. rewrite <- Sg. split; [exact A|]. split; [|split].
  - intros H. destruct B as (B1 & y & B2 & B3); [rewrite Ea; exact H|]. split; [exact B1|]. exists y. split; [exact B2|]. intros z R. rewrite <- E. apply B3, R.
  - intros H1 H2. apply C; rewrite Ea; assumption.
  - intros H. apply D. rewrite Ea. exact H.
Qed.
Lemma Q_fr q : (q == if Qnum q <? 0 then - fr (Z.abs (Qnum q)) (Zpos (Qden q)) else fr (Z.abs (Qnum q)) (Zpos (Qden q)))%Q.
Proof.
  rewrite <- fr_sign by lia. unfold fr. destruct q as [n d]. cbn [Qnum Qden]. unfold Qeq, Qdiv, Qmult, Qinv, inject_Z. cbn. lia.
Qed.
Lemma Qabs_fr q : (Qabs q == fr (Z.abs (Qnum q)) (Zpos (Qden q)))%Q.
Proof.
  rewrite (Q_fr q) at 1. pose proof (fr_nonneg (Z.abs (Qnum q)) (Zpos (Qden q)) ltac:(lia) ltac:(lia)).
  destruct (Qnum q <? 0); [rewrite Qabs_opp|]; apply Qabs_pos; assumption.
Qed.
Lemma Qnum_zero q : (q == 0)%Q <-> Qnum q = 0.
Proof. unfold Qeq. cbn [Qnum Qden]. lia. Qed.
Lemma round_to_ok s neg q : (Qnum q <> 0 -> neg = (Qnum q <? 0)) -> rounded s q (round_to s neg q) /\ sign_bit (round_to s neg q) = neg.
Proof.
  intros H. split; [|apply to_fmt_sign]. unfold round_to.
  assert (E : (q == if neg then - fr (Z.abs (Qnum q)) (Zpos (Qden q)) else fr (Z.abs (Qnum q)) (Zpos (Qden q)))%Q).
  { destruct (Z.eq_dec (Qnum q) 0) as [Z0|Nz].
    - rewrite Z0. assert (F0 : (fr (Z.abs 0) (Zpos (Qden q)) == 0)%Q) by (unfold fr, Qdiv; apply Qmult_0_l).
      apply Qnum_zero in Z0. transitivity 0%Q; [exact Z0|]. destruct neg; rewrite F0; reflexivity.
    - rewrite (H Nz). apply Q_fr. }
  pose proof (to_fmt_signed s neg (Z.abs (Qnum q)) (Zpos (Qden q)) q ltac:(lia) ltac:(lia) E) as (A & B & C).
  destruct (fmt_ok s) as (P1 & P2 & P3).
  split; [exact A|]. split; [exact C|].
  assert (M0 : (0 <= max_finite (fmt_of s))%Q) by (destruct s; vm_compute; discriminate).
  assert (Th : (max_finite (fmt_of s) < threshold (fmt_of s))%Q) by (destruct s; vm_compute; reflexivity).
  assert (Nz : (max_finite (fmt_of s) < Qabs q)%Q -> Qnum q <> 0).
  { intros L Z0. apply Qnum_zero in Z0. rewrite Z0 in L. change (Qabs 0) with 0%Q in L. apply Qlt_not_le in L. exact (L M0). }
  assert (Over : (max_finite (fmt_of s) < Qabs q)%Q -> _) by (intros L; pose proof (Nz L) as N;
    rewrite Qabs_fr in L; exact (to_fmt_over (fmt_of s) P1 P2 neg (Z.abs (Qnum q)) (Zpos (Qden q)) ltac:(lia) ltac:(lia) L)).
  split.
  - intros L1 L2. pose proof (Nz L1) as N. destruct (Over L1) as (O1 & _). rewrite Qabs_fr in L2. rewrite (O1 L2), <- (H N).
    cbn [denotes]. unfold max_finite. destruct neg; [rewrite digits_opp|]; reflexivity.
  - intros L. assert (L1 : (max_finite (fmt_of s) < Qabs q)%Q) by (eapply Qlt_le_trans; [exact Th|exact L]).
    destruct (Over L1) as (_ & O2). rewrite Qabs_fr in L. rewrite (O2 L), (H (Nz L1)). reflexivity.
Qed.

Lemma fzero_iff x q : denotes x q -> fzero x = true <-> (q == 0)%Q.
Proof.
  destruct x as [|b|b m e]; cbn [denotes fzero]; try tauto. intros ->. rewrite Z.eqb_eq. split.
  - intros ->. unfold digits. destruct b; apply Qmult_0_l.
  - intros H. unfold digits in H. apply Qmult_integral in H. destruct H as [H|H].
    + destruct b; unfold Qeq in H; cbn in H; lia.
    + exfalso. pose proof (P_pos 2 two_le e) as P. rewrite H in P. discriminate.
Qed.
Lemma sign_ok x q : nonneg_mantissa x -> denotes x q -> ~ (q == 0)%Q -> (sign_bit x = true -> (q < 0)%Q) /\ (sign_bit x = false -> (0 < q)%Q).
Proof.
  destruct x as [|b|b m e]; cbn [denotes nonneg_mantissa sign_bit]; try tauto. intros Hm -> Nz.
  pose proof (P_pos 2 two_le e) as P. unfold digits in *.
  assert (m <> 0) by (intros ->; apply Nz; destruct b; apply Qmult_0_l).
  assert (Im : (0 < inject_Z m)%Q) by (apply injZ_pos; lia).
  split; intros ->.
  - rewrite inject_Z_opp. setoid_replace (- inject_Z m * inject_Z 2 ^ e)%Q with (- (inject_Z m * inject_Z 2 ^ e))%Q by ring.
    pose proof (Qmult_lt_0_compat _ _ Im P). lra.
  - apply Qmult_lt_0_compat; assumption.
Qed.
Lemma fneg_bit x : x <> NaN -> fneg x = sign_bit x. Proof. destruct x; cbn; congruence. Qed.

Lemma fadd_ok s x y : added s x y (fadd s x y).
Proof.
  destruct x as [|a|a m e], y as [|b|b m' e']; cbn [added fadd]; try reflexivity. intros p q Dx Dy.
  change (match Fin a m e with Fin _ m0 _ => m0 =? 0 | _ => false end) with (fzero (Fin a m e)).
  destruct (fzero (Fin a m e) && fzero (Fin b m' e')) eqn:Z0.
  - apply andb_prop in Z0. destruct Z0 as (Z1 & Z2). apply (fzero_iff _ p Dx) in Z1. apply (fzero_iff _ q Dy) in Z2.
    pose proof (round_to_ok s (fneg (Fin a m e) && fneg (Fin b m' e')) 0%Q ltac:(cbn; congruence)) as (R & _).
    apply (rounded_eq s 0%Q); [rewrite Z1, Z2; reflexivity|]. exact R.
  - apply (rounded_eq s (fvalue (Fin a m e) + fvalue (Fin b m' e'))%Q).
    + rewrite (denotes_value _ _ Dx), (denotes_value _ _ Dy). reflexivity.
    + apply round_to_ok. reflexivity.
Qed.
Lemma Qdiv_sign p q : ~ (q == 0)%Q -> Qnum (p / q) <> 0 -> (Qnum (p / q) <? 0) = xorb (Qnum p <? 0) (Qnum q <? 0).
Proof.
  intros Nq. assert (Qnum q <> 0) by (intros H; apply Nq, Qnum_zero, H).
  destruct p as [pn pd], q as [qn qd]. unfold Qdiv, Qinv, Qmult. cbn [Qnum Qden] in *. destruct qn as [|qn|qn]; cbn [Qnum Qden] in *; nia.
Qed.
Lemma sign_num x q : nonneg_mantissa x -> denotes x q -> ~ (q == 0)%Q -> (Qnum q <? 0) = sign_bit x.
Proof.
  intros N D Nz. destruct (sign_ok x q N D Nz) as (A & B). destruct (sign_bit x).
  - specialize (A eq_refl). unfold Qlt in A. cbn [Qnum Qden] in A. lia.
  - specialize (B eq_refl). unfold Qlt in B. cbn [Qnum Qden] in B. lia.
Qed.
Lemma fdiv_ok s x y : nonneg_mantissa x -> nonneg_mantissa y -> divided s x y (fdiv s x y).
Proof.
  intros Nx Ny. destruct x as [|a|a m e], y as [|b|b m' e']; cbn [divided fdiv]; try reflexivity.
  - cbn [fneg sign_bit]. split; [|reflexivity]. unfold is_zero. cbn [denotes]. unfold digits. destruct (xorb a b); symmetry; apply Qmult_0_l.
  - intros p q Dx Dy. pose proof (fzero_iff _ p Dx) as Zx. pose proof (fzero_iff _ q Dy) as Zy.
    set (x := Fin a m e) in *. set (y := Fin b m' e') in *.
    change (fneg x) with (sign_bit x). change (fneg y) with (sign_bit y).
    split; [|split].
    + intros Q0 P0. rewrite (proj2 Zy Q0), (proj2 Zx P0). reflexivity.
    + intros Q0 P0. rewrite (proj2 Zy Q0). destruct (fzero x); [exfalso; apply P0, Zx; reflexivity|reflexivity].
    + intros Q0. destruct (fzero y); [exfalso; apply Q0, Zy; reflexivity|].
      assert (E : (fvalue x / fvalue y == p / q)%Q) by (rewrite (denotes_value _ _ Dx), (denotes_value _ _ Dy); reflexivity).
      pose proof (round_to_ok s (xorb (sign_bit x) (sign_bit y)) (fvalue x / fvalue y)%Q) as R.
      destruct R as (R1 & R2).
      * intros Nz. assert (Qv : ~ (fvalue y == 0)%Q) by (rewrite (denotes_value _ _ Dy); exact Q0).
        rewrite Qdiv_sign by assumption.
        assert (Pv : ~ (fvalue x == 0)%Q).
        { intros P0. apply Nz, Qnum_zero. rewrite P0. unfold Qdiv. apply Qmult_0_l. }
        rewrite (sign_num x (fvalue x)), (sign_num y (fvalue y)); try assumption; try reflexivity; apply denotes_fvalue; exact Logic.I.
      * split; [|exact R2]. apply (rounded_eq s _ _ _ E R1).
Qed.

(** ** Comparisons *)
Lemma fltb_ok x y a b : stands x a -> stands y b -> fltb x y = true <-> ext_lt a b.
Proof.
  destruct a as [|p|], b as [|q|]; cbn [stands ext_lt]; intros Hx Hy; subst; cbn [fltb]; try (split; [discriminate|tauto]); try tauto.
  - destruct y; cbn in Hy; tauto.
  - destruct x; cbn in Hx; try tauto. split; [discriminate|tauto].
  - pose proof (denotes_value _ _ Hx) as Ex. pose proof (denotes_value _ _ Hy) as Ey.
    destruct x; cbn in Hx; try tauto. destruct y; cbn in Hy; try tauto. cbn [fltb]. rewrite <- Ex, <- Ey.
    rewrite Bool.negb_true_iff. split; intros H.
    + apply Qnot_le_lt. intros L. apply Qle_bool_iff in L. congruence.
    + apply Bool.not_true_iff_false. intros L. apply Qle_bool_iff in L. apply Qlt_not_le in H. exact (H L).
  - destruct x; cbn in Hx; tauto.
  - destruct y; cbn in Hy; tauto || (split; [discriminate|tauto]).
Qed.
Lemma fleb_ok x y a b : stands x a -> stands y b -> fleb x y = true <-> ext_le a b.
Proof.
  unfold ext_le. destruct a as [|p|], b as [|q|]; cbn [stands ext_lt ext_eq]; intros Hx Hy; subst; cbn [fleb]; try (split; [discriminate|tauto]); try tauto.
  - destruct y; cbn in Hy; tauto.
  - destruct x; cbn in Hx; try tauto. split; [discriminate|tauto].
  - pose proof (denotes_value _ _ Hx) as Ex. pose proof (denotes_value _ _ Hy) as Ey.
    destruct x; cbn in Hx; try tauto. destruct y; cbn in Hy; try tauto. cbn [fleb]. rewrite <- Ex, <- Ey.
    rewrite Qle_bool_iff. rewrite Qle_lteq. reflexivity.
  - destruct x; cbn in Hx; tauto.
  - destruct y; cbn in Hy; tauto || (split; [discriminate|tauto]).
Qed.
Lemma ext_tri a b : ext_lt a b \/ ext_eq a b \/ ext_lt b a.
Proof. destruct a as [|p|], b as [|q|]; cbn; try tauto. destruct (Q_dec p q) as [[H|H]|H]; tauto. Qed.
Lemma ext_not_lt a b : ~ ext_lt a b <-> ext_le b a.
Proof.
  unfold ext_le. destruct a as [|p|], b as [|q|]; cbn; try tauto. rewrite <- Qle_lteq. split; [apply Qnot_lt_le|intros H L; apply Qlt_not_le in L; exact (L H)].
Qed.
Lemma ext_le_trans a b c : ext_le a b -> ext_le b c -> ext_le a c.
Proof. unfold ext_le. destruct a as [|p|], b as [|q|], c as [|r|]; cbn; try tauto. rewrite <- !Qle_lteq. apply Qle_trans. Qed.
Lemma ext_le_refl a : ext_le a a.
Proof. unfold ext_le. destruct a; cbn; try tauto. right. reflexivity. Qed.
Lemma fltb_nan x y : x = NaN \/ y = NaN -> fltb x y = false /\ fleb x y = false.
Proof. intros [->| ->]; [split; reflexivity|destruct x; split; reflexivity]. Qed.

(** the folds of Max and Min *)
Section Extreme.
  (** [le]: the order of Max, or its converse for Min *)
  Variables (lt : float -> float -> bool) (le : ext -> ext -> Prop).
  Hypothesis lt_le : forall x y a b, stands x a -> stands y b -> lt x y = false -> le b a.
  Hypothesis lt_le' : forall x y a b, stands x a -> stands y b -> lt x y = true -> le a b.
  Hypothesis le_trans : forall a b c, le a b -> le b c -> le a c.
  Hypothesis le_refl : forall a, le a a.
  Let pick a b := if lt b a then a else b.
  Lemma pick_fold l : forall x a, stands x a -> Forall (fun y => exists b, stands y b) l ->
    exists c, In (fold_left pick l x) (x :: l) /\ stands (fold_left pick l x) c /\ forall y b, In y (x :: l) -> stands y b -> le b c.
  Proof.
    assert (SU : forall x a b, stands x a -> stands x b -> le a b).
    { intros x a b Ha Hb. destruct (lt x x) eqn:E; [eapply lt_le'|eapply lt_le]; eauto. }
    induction l as [|y l IH]; intros x a Hx F; cbn [fold_left].
    - exists a. split; [left; reflexivity|]. split; [exact Hx|]. intros y b [<-|[]] Hy. eapply SU; eauto.
    - inversion F as [|? ? (b & Hy) F']; subst. unfold pick at 2 4. destruct (lt y x) eqn:E.
      + destruct (IH x a Hx F') as (c & I & Hc & M). exists c. split; [cbn in *; tauto|]. split; [exact Hc|].
        intros z d [<-|[<-|Iz]] Hz; [eapply M; [left; reflexivity|exact Hz]| |eapply M; [right; exact Iz|exact Hz]].
        eapply le_trans; [eapply lt_le'; [exact Hz|exact Hx|exact E]|]. eapply M; [left; reflexivity|exact Hx].
      + destruct (IH y b Hy F') as (c & I & Hc & M). exists c. split; [cbn in *; tauto|]. split; [exact Hc|].
        intros z d [<-|[<-|Iz]] Hz; [|eapply M; [left; reflexivity|exact Hz]|eapply M; [right; exact Iz|exact Hz]].
        eapply le_trans; [eapply lt_le; [exact Hy|exact Hz|exact E]|]. eapply M; [left; reflexivity|exact Hy].
  Qed.
End Extreme.
