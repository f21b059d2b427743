(** Proofs about ConvFloat.v, continued: conv.To. *)
From Coq Require Import ZArith List QArith Qpower Qabs Lia Lqa ZifyBool ZifyNat.
From Verif Require Import Base GoInt Conv ConvSpec ConvProofs Float FloatSpec FloatProofs FloatProofs2 ConvFloat ConvFloatSpec
  DecDigits ConvFloatProofs ConvFloatProofs2 ConvFloatProofs3.
From Coq Require Qcanon.
Close Scope Q_scope.
Open Scope Z_scope.

Lemma in_type_dec t z : in_type t z \/ ~ in_type t z.
Proof.
  rewrite in_type_iff. destruct (Z_le_gt_dec (lo_of t) z); [|right; lia]. destruct (Z_le_gt_dec z (hi_of t)); [left; lia|right; lia].
Qed.
Lemma integral_dec' q : integral q \/ ~ integral q.
Proof.
  destruct (integral_dec (Qred q) (Qcanon.Qred_involutive q)) as [H|H].
  - left. apply (integral_eq (Qred q)); [apply Qred_correct|exact H].
  - right. intros G. apply H. apply (integral_eq q); [symmetry; apply Qred_correct|exact G].
Qed.
Lemma has_int_dec t q : (exists z, (q == inject_Z z)%Q /\ in_type t z) \/ ~ (exists z, (q == inject_Z z)%Q /\ in_type t z).
Proof.
  destruct (integral_dec' q) as [(z & E)|N].
  - destruct (in_type_dec t z) as [D|D]; [left; exists z; auto|right]. intros (z' & E' & D'). apply D.
    rewrite E in E'. apply inject_Z_inj in E'. subst z'. exact D'.
  - right. intros (z & E & _). apply N. exists z. exact E.
Qed.
Lemma exact_to_int_some t q o z : exact_to_int t q o (None, z) -> (q == inject_Z z)%Q /\ in_type t z.
Proof.
  intros [H1 H2]. destruct (has_int_dec t q) as [(z' & E & D)|N].
  - specialize (H1 z' E D). injection H1 as ->. auto.
  - destruct (H2 N) as [G _]. cbn in G. congruence.
Qed.
Lemma exact_to_bigint_some q o z : exact_to_bigint q o (None, z) -> (q == inject_Z z)%Q.
Proof.
  intros [H1 H2]. destruct (integral_dec' q) as [(z' & E)|N].
  - specialize (H1 z' E). injection H1 as ->. auto.
  - destruct (H2 N) as [G _]. cbn in G. congruence.
Qed.
Lemma rep_dec s q : representable (fmt_of s) q \/ ~ representable (fmt_of s) q.
Proof.
  pose proof (bigrat_to_float_exact s q) as [H1 H2]. unfold bigrat_to_float in *.
  set (x := to_fmt (fmt_of s) (Qnum q <? 0) (Z.abs (Qnum q)) (Zpos (Qden q))) in *. destruct (exact q x) eqn:E.
  - left. apply (denotes_representable _ x); [|apply exact_iff, E]. apply to_fmt_is_float; try apply fmt_ok; lia.
  - right. intros R. destruct (H1 R) as [G _]. cbn in G. discriminate.
Qed.
Lemma exact_to_float_some s q x : exact_to_float (fmt_of s) q (None, x) -> is_float (fmt_of s) x /\ denotes x q.
Proof.
  intros [H1 H2]. destruct (rep_dec s q) as [R|R].
  - destruct (H1 R) as (_ & A & B). auto.
  - destruct (H2 R) as [G _]. cbn in G. congruence.
Qed.

Lemma same_number_finite v w q : number v q -> number w q -> same_number v w.
Proof.
  intros Hv Hw. split; [|split].
  - intros r Hr. assert (E : (q == r)%Q).
    { destruct v; cbn in Hv, Hr; try tauto; try (rewrite Hv, Hr; reflexivity); eapply denotes_unique; eassumption. }
    destruct w; cbn in *; try tauto; try (rewrite <- E; exact Hw); apply (denotes_eq _ q); assumption.
  - intros neg Hi. destruct v; cbn in Hi, Hv; try tauto; subst; cbn in Hv; tauto.
  - intros Hn. unfold nan in Hn. subst v. cbn in Hv. tauto.
Qed.

Lemma number_fin x : finite x -> number (VF x) (fvalue x). Proof. apply denotes_fvalue. Qed.

(** the non-finite floats, and the finite ones *)
Lemma float_cases x : x = NaN \/ (exists neg, x = Inf neg) \/ denotes x (fvalue x).
Proof. destruct x as [|neg|neg m e]; [left; reflexivity|right; left; exists neg; reflexivity|right; right; apply denotes_fvalue; exact Logic.I]. Qed.

Lemma small_rep k f z : float_table k f = false -> in_type k z -> representable (fmt_of f) (inject_Z z).
Proof. intros T H. apply rep_small. destruct f, k; cbn in T; try discriminate; unfold in_type in H; cbn in *; lia. Qed.

(** ** float32 to the integer types of at most 32 bits *)
Lemma round_rel_error n d : 0 < n -> 0 < d -> let '(m, e) := round 10 10 None n d in
  (Qabs (fr n d - digits 10 m e) * inject_Z (2 * 10 ^ 9) <= fr n d)%Q.
Proof.
  intros Hn Hd. pose proof (round_m 10 ten_le 10 None n d Hn Hd) as (n' & d' & Hn' & Hd' & Em & Ef).
  pose proof (round_e 10 10 None n d) as Re. pose proof (top_spec 10 ten_le n d Hn Hd) as [T _].
  destruct (round 10 10 None n d) as [m e]. cbn [fst snd] in *. destruct Re as [Re|Re]; [|discriminate].
  set (pe := Qpower (inject_Z 10) e) in *. assert (Pp : (0 < pe)%Q) by apply P_pos, ten_le.
  assert (E1 : (fr n d == fr n' d' * pe)%Q). { rewrite Ef. field. apply P_nz, ten_le. }
  assert (B : (Qabs (fr n' d' - inject_Z m) * inject_Z 2 <= 1)%Q).
  { pose proof (rne_bound n' d' Hd') as R. rewrite <- Em in R.
    assert (E2 : (fr n' d' - inject_Z m == inject_Z (n' - d' * m) / inject_Z d')%Q).
    { unfold fr. unfold Zminus. rewrite inject_Z_plus, inject_Z_opp, inject_Z_mult. field. apply injZ_nz, Hd'. }
    rewrite E2. unfold Qdiv. rewrite Qabs_Qmult. rewrite (Qabs_pos (/ inject_Z d')) by (apply Qinv_le_0_compat, Qlt_le_weak, injZ_pos, Hd').
    change (Qabs (inject_Z (n' - d' * m))) with (inject_Z (Z.abs (n' - d' * m))).
    assert (E3 : (inject_Z (Z.abs (n' - d' * m)) * / inject_Z d' * inject_Z 2 == inject_Z (2 * Z.abs (n' - d' * m)) / inject_Z d')%Q).
    { rewrite inject_Z_mult. field. apply injZ_nz, Hd'. }
    rewrite E3. apply Qle_shift_div_r; [apply injZ_pos, Hd'|]. rewrite Qmult_1_l, <- Zle_Qle. exact R. }
  assert (E4 : (Qabs (fr n d - digits 10 m e) == Qabs (fr n' d' - inject_Z m) * pe)%Q).
  { rewrite E1. unfold digits. fold pe. apply Qabs_scale, Pp. }
  assert (E5 : (pe * inject_Z (10 ^ 9) <= fr n d)%Q).
  { eapply Qle_trans; [|exact T]. replace (top 10 n d) with (e + 9) by lia.
    rewrite P_plus by exact ten_le. fold pe. rewrite (P_Z 10 9) by lia. apply Qle_refl. }
  rewrite E4, inject_Z_mult. set (a := Qabs (fr n' d' - inject_Z m)) in *.
  eapply Qle_trans; [|exact E5].
  assert (E6 : (a * pe * (inject_Z 2 * inject_Z (10 ^ 9)) == (a * inject_Z 2) * (pe * inject_Z (10 ^ 9)))%Q) by ring.
  rewrite E6. assert (Pq : (0 < pe * inject_Z (10 ^ 9))%Q) by (apply Qmult_lt_0_compat; [exact Pp|reflexivity]).
  rewrite <- (Qmult_1_l (pe * inject_Z (10 ^ 9))) at 2. apply Qmult_le_compat_r; [exact B|apply Qlt_le_weak, Pq].
Qed.
Lemma ten_rel_error x q : nonneg_mantissa x -> denotes x q -> (Qabs (q - ten_digits x) * inject_Z (2 * 10 ^ 9) <= Qabs q)%Q.
Proof.
  destruct x as [|neg|neg m e]; cbn [denotes]; try tauto. intros Hm H. cbn in Hm. unfold ten_digits. destruct (m =? 0) eqn:C.
  - apply Z.eqb_eq in C. subst m. assert (Q0 : (q == 0)%Q). { rewrite H. destruct neg; unfold digits; cbn [Z.opp]; ring. }
    rewrite Q0. change (Qabs (0 - 0)) with 0%Q. change (Qabs 0) with 0%Q. rewrite Qmult_0_l. apply Qle_refl.
  - pose proof (frac_signed neg m e ltac:(lia)) as F. pose proof (frac_spec m e) as (_ & _ & F3 & _).
    destruct (frac m e) as [n d]. cbn [fst] in F3. destruct F as (_ & Hd & F2). assert (Hn : 0 < n) by (apply F3; lia).
    pose proof (round_rel_error n d Hn Hd) as N. destruct (round 10 10 None n d) as [m1 e1]. cbn [fst snd] in *.
    pose proof (scale_spec 10 ten_le (- e1) (if neg then - m1 else m1) 1 ltac:(lia)) as S1.
    destruct (scale 10 (- e1) (if neg then - m1 else m1) 1) as [n' d']. destruct S1 as (D' & _ & E').
    assert (V : (Qred (n' # Z.to_pos d') == if neg then - digits 10 m1 e1 else digits 10 m1 e1)%Q).
    { rewrite Qred_correct, Qmake_fr by exact D'. rewrite E', fr_1, P_opp. unfold digits.
      destruct neg; [rewrite inject_Z_opp|]; field; apply P_nz, ten_le. }
    pose proof (fr_nonneg n d ltac:(lia) Hd) as F0.
    assert (Qa : (Qabs q == fr n d)%Q) by (rewrite H, F2; destruct neg; [rewrite Qabs_opp|]; apply Qabs_pos, F0).
    rewrite Qa. eapply Qle_trans; [|exact N]. rewrite V, H, F2. destruct neg; [rewrite Qabs_opp_minus|]; apply Qle_refl.
Qed.
Lemma rep32_frac q : representable f32 q -> integral q \/ exists m k, 0 < k /\ Z.abs m < 2 ^ 24 /\ (q * inject_Z (2 ^ k) == inject_Z m)%Q /\ (m mod 2 ^ k <> 0).
Proof.
  intros R. apply (rep_iff S32) in R. destruct R as (m & e & H1 & H2 & H3). cbn [fmt_of fp f32] in H1. destruct (Z_lt_ge_dec e 0) as [Ne|Ge].
  - set (k := - e). assert (Hk : 0 < k) by (subst k; lia). assert (P0 : 0 < 2 ^ k) by (apply Z.pow_pos_nonneg; lia).
    assert (E : (q * inject_Z (2 ^ k) == inject_Z m)%Q).
    { rewrite H3. unfold digits. rewrite <- (P_Z 2) by lia. subst k. rewrite P_opp. field. apply P_nz, two_le. }
    destruct (Z.eq_dec (m mod 2 ^ k) 0) as [M|M]; [left|right; exists m, k; auto].
    exists (m / 2 ^ k). apply (Qmult_inj_r _ _ (inject_Z (2 ^ k))); [apply injZ_nz, P0|]. rewrite E, <- inject_Z_mult.
    pose proof (Z.div_mod m (2 ^ k) ltac:(lia)) as D. replace (m / 2 ^ k * 2 ^ k) with m by lia. reflexivity.
  - left. exists (m * 2 ^ e). rewrite H3. unfold digits. rewrite inject_Z_mult, (P_Z 2) by lia. reflexivity.
Qed.
Lemma ten_integral32 x q : is_float f32 x -> denotes x q -> integral (ten_digits x) -> integral q.
Proof.
  intros Fx D (z & Ez). destruct (rep32_frac q (denotes_representable _ x q Fx D)) as [I|(m & k & Hk & Hm & E & M)]; [exact I|exfalso].
  pose proof (ten_rel_error x q (is_float_nonneg _ _ Fx) D) as R. rewrite Ez in R.
  assert (P0 : 0 < 2 ^ k) by (apply Z.pow_pos_nonneg; lia). assert (Pq : (0 < inject_Z (2 ^ k))%Q) by (apply injZ_pos, P0).
  assert (X : (Qabs (q - inject_Z z) * inject_Z (2 ^ k) == inject_Z (Z.abs (m - z * 2 ^ k)))%Q).
  { change (inject_Z (Z.abs (m - z * 2 ^ k))) with (Qabs (inject_Z (m - z * 2 ^ k))). unfold Zminus. rewrite inject_Z_plus, inject_Z_opp, inject_Z_mult, <- E.
    rewrite <- (Qabs_scale q (inject_Z z) (inject_Z (2 ^ k)) Pq). apply Qabs_wd. ring. }
  assert (Y : (Qabs q * inject_Z (2 ^ k) == inject_Z (Z.abs m))%Q).
  { change (inject_Z (Z.abs m)) with (Qabs (inject_Z m)). rewrite <- E, Qabs_Qmult. rewrite (Qabs_pos (inject_Z (2 ^ k))); [reflexivity|apply Qlt_le_weak, Pq]. }
  assert (N : Z.abs (m - z * 2 ^ k) * (2 * 10 ^ 9) <= Z.abs m).
  { rewrite Zle_Qle, inject_Z_mult, <- X, <- Y.
    assert (A : (Qabs (q - inject_Z z) * inject_Z (2 ^ k) * inject_Z (2 * 10 ^ 9) == (Qabs (q - inject_Z z) * inject_Z (2 * 10 ^ 9)) * inject_Z (2 ^ k))%Q) by ring.
    rewrite A. apply Qmult_le_compat_r; [exact R|apply Qlt_le_weak, Pq]. }
  change (2 ^ 24) with 16777216 in Hm. change (2 * 10 ^ 9) with 2000000000 in N. assert (E0 : m = z * 2 ^ k) by lia.
  apply M. rewrite E0. apply Z.mod_mul. lia.
Qed.
Lemma short10_int v : Z.abs v < 10 ^ 10 -> short 10 10 (inject_Z v).
Proof. intros H. exists v, 0. split; [exact H|]. unfold digits. change (Qpower (inject_Z 10) 0) with 1%Q. ring. Qed.
Lemma nearest_ge q y : nearest_short 10 10 q y -> (inject_Z (10 ^ 10) <= q)%Q -> (inject_Z (10 ^ 10) <= y)%Q.
Proof.
  intros [_ N] H. assert (Sh : short 10 10 (inject_Z (10 ^ 10))) by (exists 1, 10; split; [lia|reflexivity]).
  specialize (N _ Sh). set (c := inject_Z (10 ^ 10)) in *. rewrite (Qabs_pos (q - c)) in N by lra.
  apply Qabs_Qle_condition in N. lra.
Qed.
Lemma nearest_opp q y : nearest_short 10 10 q y -> nearest_short 10 10 (- q) (- y).
Proof.
  intros [H N]. split; [apply short_opp, H|]. intros z Hz. assert (E : (z == - - z)%Q) by ring. rewrite E, !Qabs_opp_minus. apply N, short_opp, Hz.
Qed.
Lemma nearest_small_int q y z : nearest_short 10 10 q y -> (y == inject_Z z)%Q -> Z.abs z < 10 ^ 10 -> integral q -> (q == y)%Q.
Proof.
  intros N E Hz (v & Ev). symmetry. apply (nearest_short_exact 10 10 q y N). apply (short_eq _ _ (inject_Z v)); [symmetry; exact Ev|]. apply short10_int.
  destruct (Z_lt_ge_dec (Z.abs v) (10 ^ 10)) as [L|G]; [exact L|exfalso]. destruct (Z_lt_ge_dec v 0) as [Ng|Ps].
  - pose proof (nearest_ge (- q) (- y) (nearest_opp q y N)) as X. rewrite Ev, E, <- !inject_Z_opp, <- !Zle_Qle in X. lia.
  - pose proof (nearest_ge q y N) as X. rewrite Ev, E, <- !Zle_Qle in X. lia.
Qed.
Lemma in_type_32 k z : num_bits k <= 32 -> in_type k z -> Z.abs z < 10 ^ 10.
Proof. change (10 ^ 10) with 10000000000. destruct k; unfold in_type; cbn; lia. Qed.
Lemma float32_int_ok k x q o : num_bits k <= 32 -> is_float f32 x -> denotes x q -> exact_to_int k q o (float_int k x o).
Proof.
  intros Hk Fx D. pose proof (float_int_ok k x q o D) as X. pose proof (ten_digits_spec x q (is_float_nonneg _ _ Fx) D) as T.
  destruct X as [X1 X2]. split.
  - intros z E Dz. apply X1; [|exact Dz]. rewrite <- E. apply (nearest_short_exact 10 10 q _ T).
    apply (short_eq _ _ (inject_Z z)); [symmetry; exact E|]. apply short10_int, (in_type_32 k); assumption.
  - intros N. apply X2. intros (z & E & Dz). apply N. exists z. split; [|exact Dz]. rewrite <- E.
    apply (nearest_small_int q _ z T E); [apply (in_type_32 k); assumption|]. apply (ten_integral32 x); [exact Fx|exact D|]. exists z. exact E.
Qed.

Section To.
  Variables (oor : ikind -> float -> Z) (pl : list Z -> option literal) (ff : fsize -> float -> list Z) (fb : float -> list Z)
    (pr : list Z -> option Q).
  Notation TO := (to oor pl ff fb pr).

  Lemma to_total s t v o : well_typed s v -> out_typed t o -> exists e r, TO s t v o = Done (e, r).
  Proof.
    intros Hv Ho. destruct s as [k|sz| | | |]; destruct v as [z|x|z|x|q|l|]; cbn in Hv; try tauto;
      destruct t as [k'|sz'| | | |]; try (destruct o as [z'|x'|z'|x'|q'|l'|]; cbn in Ho; try tauto);
      try (destruct sz as [|]); try (destruct sz' as [|]); cbn [to lift_i lift_f]; try (eexists; eexists; reflexivity).
    all: try (destruct (to_int_exact k k' z z' Hv) as (r & -> & _); eexists; eexists; reflexivity).
    all: repeat match goal with |- context [match ?a with _ => _ end] => destruct a; try (eexists; eexists; reflexivity) end.
  Qed.

  Ltac done_inj H := unfold lift_i, lift_f in H; cbn [fst snd] in H; injection H; clear H; intros; subst.

  Lemma bigint_out (r : option err * Z) (o w : gval) :
    match r with (None, z) => Done (None, VBigInt z) | (e, _) => Done (e, o) end = Done (None, w) -> exists z, r = (None, z) /\ w = VBigInt z.
  Proof. destruct r as [[e|] z]; intros H; [discriminate|]. injection H as <-. eauto. Qed.

  Lemma to_preserves s t v o w : oor_representable oor -> well_typed s v -> out_typed t o -> numeric s -> numeric t -> ~ lossy s t ->
    TO s t v o = Done (None, w) -> well_typed t w /\ same_number v w.
  Proof.
    intros Hoor Hv Ho Ns Nt NL H. destruct s as [k|sz| | | |]; [| | | | |exfalso; apply Ns; reflexivity];
      destruct v as [z|x|z|x|q|l|]; cbn in Hv; try tauto.
    - (* integers *)
      destruct t as [k'|sz'| | | |]; [| | | | |exfalso; apply Nt; reflexivity].
      + destruct o as [o| | | | | |]; cbn in Ho; try tauto. cbn [to] in H. destruct (to_int_exact k k' z o Hv) as ([e r] & E & [X1 X2]).
        rewrite E in H. done_inj H. destruct (in_type_dec k' z) as [D|D].
        * specialize (X1 D). injection X1 as ->. split; [exact D|]. apply (same_number_finite _ _ (inject_Z z)); cbn; reflexivity.
        * destruct (X2 D) as [G _]. cbn in G. congruence.
      + destruct o as [|o| | | | |]; cbn in Ho; try tauto. cbn [to] in H. destruct (float_table k sz') eqn:T.
        * destruct (rep_dec sz' (inject_Z z)) as [R|R].
          -- rewrite (int_to_float_exact oor k sz' z o Hv R) in H. done_inj H.
             split; [apply int_cast_float_ok|]. apply (same_number_finite _ _ (inject_Z z)); [cbn; reflexivity|apply int_cast_float_exact, R].
          -- rewrite (int_to_float_inexact oor k sz' z o) in H; [|intros x; apply Hoor|exact R]. discriminate.
        * done_inj H. split; [apply int_cast_float_ok|].
          apply (same_number_finite _ _ (inject_Z z)); [cbn; reflexivity|]. apply int_cast_float_exact, (small_rep k); assumption.
      + cbn [to] in H. done_inj H. split; [exact Logic.I|]. apply (same_number_finite _ _ (inject_Z z)); cbn; reflexivity.
      + cbn [to] in H. done_inj H. destruct (is_signed k) eqn:Sk.
        * assert (D := int_to_bigfloat_exact z). split.
          -- unfold well_typed. pose proof (int_to_bigfloat_nonneg z). destruct (int_to_bigfloat z); cbn [denotes nonneg_mantissa] in *; [tauto|tauto|]. split; [discriminate|assumption].
          -- apply (same_number_finite _ _ (inject_Z z)); [cbn; reflexivity|exact D].
        * assert (Sh : short 2 53 (inject_Z z)).
          { apply short_int. destruct k; cbn in Sk, NL; try discriminate; try tauto; unfold in_type in Hv; cbn in *; lia. }
          assert (Z0 : 0 <= z) by (unfold in_type in Hv; rewrite Sk in Hv; lia).
          destruct (uint_to_bigfloat_nearest z Z0) as (y & Y1 & _ & Y2). specialize (Y2 Sh).
          apply (denotes_eq _ _ _ Y2) in Y1. split.
          -- unfold well_typed. pose proof (to_prec_nonneg 53 false z 1 ltac:(lia) Z0 ltac:(lia)) as NN. change (nonneg_mantissa (uint_to_bigfloat z)) in NN.
             destruct (uint_to_bigfloat z); cbn [denotes nonneg_mantissa] in *; [tauto|tauto|]. split; [discriminate|assumption].
          -- apply (same_number_finite _ _ (inject_Z z)); [cbn; reflexivity|exact Y1].
      + cbn [to] in H. done_inj H. split; [apply Qred_int|]. apply (same_number_finite _ _ (inject_Z z)); cbn; reflexivity.
    - (* floats *)
      pose proof (is_float_nonneg _ _ Hv) as Nn.
      destruct t as [k'|sz'| | | |]; [| | | |destruct sz; cbn in NL; tauto|exfalso; apply Nt; reflexivity].
      + destruct sz; [|cbn in NL; tauto]. destruct o as [o| | | | | |]; cbn in Ho; try tauto.
        assert (Hk : num_bits k' <= 32) by (destruct k'; cbn in NL |- *; try tauto; lia).
        assert (H' : lift_i (float_int k' x o) = Done (None, w)) by exact H. clear H. rename H' into H.
        destruct (float_cases x) as [->|[(neg & ->)|D]]; try (rewrite float_int_special in H by (cbn; tauto); discriminate).
        pose proof (float32_int_ok k' x (fvalue x) o Hk Hv D) as X. destruct (float_int k' x o) as [e r]. done_inj H.
        apply exact_to_int_some in X. destruct X as [X1 X2]. split; [exact X2|].
        apply (same_number_finite _ _ (fvalue x)); [exact D|exact X1].
      + destruct sz, sz'; cbn [to] in H; try (cbn in NL; tauto).
        * done_inj H. split; [exact Hv|]. unfold same_number. auto.
        * destruct o as [|o| | | | |]; cbn in Ho; try tauto. done_inj H. destruct (float_cases x) as [->|[(neg & ->)|D]].
          -- split; [exact Logic.I|]. unfold same_number. auto.
          -- split; [exact Logic.I|]. unfold same_number. auto.
          -- destruct (float_cast_ok S64 x (fvalue x) Nn D) as (A & B & _). split; [exact A|].
             apply (same_number_finite _ _ (fvalue x)); [exact D|]. apply B. apply f32_in_f64. apply (denotes_representable _ x); assumption.
        * done_inj H. split; [exact Hv|]. unfold same_number. auto.
      + assert (H' : match float_to_bigint x 0 with (None, z) => Done (None, VBigInt z) | (e, _) => Done (e, o) end = Done (None, w)) by (destruct sz; exact H).
        apply bigint_out in H'. clear H. rename H' into H. destruct H as (z & Hz & ->). split; [exact Logic.I|].
        destruct (float_cases x) as [->|[(neg & ->)|D]]; try (cbn in Hz; discriminate).
        pose proof (float_to_bigint_exact x (fvalue x) 0 D) as X. rewrite Hz in X. apply exact_to_bigint_some in X.
        apply (same_number_finite _ _ (fvalue x)); [exact D|exact X].
      + assert (H' : match float_to_bigfloat x (Fin false 0 0) with (None, y) => Done (None, VBigFloat y) | (e, _) => Done (e, o) end = Done (None, w)) by (destruct sz; exact H).
        clear H. rename H' into H. destruct (float_cases x) as [->|[(neg & ->)|D]].
        * cbn in H. discriminate.
        * cbn in H. injection H as <-. split; [cbn; split; [discriminate|exact Logic.I]|]. unfold same_number, nan.
          split; [|split]; auto. intros E. discriminate.
        * assert (E : float_to_bigfloat x (Fin false 0 0) = (None, x)) by (destruct x; cbn in D; try tauto; reflexivity).
          rewrite E in H. injection H as <-. split; [destruct x; cbn in *; try tauto; split; [discriminate|exact Nn]|].
          apply (same_number_finite _ _ (fvalue x)); exact D.
    - (* big.Int *)
      destruct t as [k'|sz'| | | |]; [| | | | |exfalso; apply Nt; reflexivity].
      + destruct o as [o| | | | | |]; cbn in Ho; try tauto. cbn [to] in H.
        assert (X : exact_to_int k' (inject_Z z) o (via64 k' (if is_signed k' then bigint_to_int64 z else bigint_to_uint64 z) o)).
        { apply via64_exact; [|left; exists z; reflexivity]. intros o'. apply exact_to_int_of_z.
          pose proof (bigint64_exact (is_signed k') z o') as G. destruct (is_signed k'); exact G. }
        destruct (via64 k' _ o) as [e r]. done_inj H. apply exact_to_int_some in X. destruct X as [X1 X2]. split; [exact X2|].
        apply (same_number_finite _ _ (inject_Z z)); [cbn; reflexivity|exact X1].
      + destruct sz'; [cbn in NL; tauto|]. destruct o as [|o| | | | |]; cbn in Ho; try tauto. cbn [to] in H.
        pose proof (bigint_to_float_exact S64 z) as X. destruct (bigint_to_float S64 z) as [e r]. done_inj H. apply exact_to_float_some in X.
        destruct X as [X1 X2]. split; [exact X1|]. apply (same_number_finite _ _ (inject_Z z)); [cbn; reflexivity|exact X2].
      + cbn [to] in H. done_inj H. split; [exact Logic.I|]. unfold same_number. auto.
      + cbn [to] in H. done_inj H. split.
        * unfold well_typed. pose proof (bigint_to_bigfloat_nonneg z). pose proof (bigint_to_bigfloat_exact z).
          destruct (bigint_to_bigfloat z); cbn [denotes nonneg_mantissa] in *; [tauto|tauto|]. split; [discriminate|assumption].
        * apply (same_number_finite _ _ (inject_Z z)); [cbn; reflexivity|apply bigint_to_bigfloat_exact].
      + cbn [to] in H. done_inj H. split; [apply Qred_int|]. apply (same_number_finite _ _ (inject_Z z)); cbn; reflexivity.
    - (* big.Float *)
      destruct Hv as [Nan Nn]. change (nonneg_mantissa x) in Nn.
      destruct t as [k'|sz'| | | |]; [| | | |cbn in NL; tauto|exfalso; apply Nt; reflexivity].
      + destruct o as [o| | | | | |]; cbn in Ho; try tauto. cbn [to] in H. destruct (float_cases x) as [->|[(neg & ->)|D]]; [congruence| |].
        * exfalso. destruct k'; cbn in H; discriminate.
        * assert (X : exact_to_int k' (fvalue x) o (via64 k' (if is_signed k' then bigfloat_to_int64 x else bigfloat_to_uint64 x) o)).
          { apply via64_exact; [|apply integral_dec, fvalue_red]. intros o'.
            pose proof (bigfloat64_exact (is_signed k') x (fvalue x) o' D) as G. destruct (is_signed k'); exact G. }
          destruct (via64 k' _ o) as [e r]. done_inj H. apply exact_to_int_some in X. destruct X as [X1 X2]. split; [exact X2|].
          apply (same_number_finite _ _ (fvalue x)); [exact D|exact X1].
      + destruct sz'; [cbn in NL; tauto|]. destruct o as [|o| | | | |]; cbn in Ho; try tauto. cbn [to] in H.
        destruct (float_cases x) as [->|[(neg & ->)|D]]; [congruence| |].
        * cbn in H. injection H as <-. split; [exact Logic.I|]. unfold same_number, nan. split; [|split]; auto. discriminate.
        * pose proof (bigfloat_to_float_exact S64 x (fvalue x) Nn D) as X. destruct (bigfloat_to_float S64 x) as [e r]. done_inj H.
          apply exact_to_float_some in X. destruct X as [X1 X2]. split; [exact X1|]. apply (same_number_finite _ _ (fvalue x)); [exact D|exact X2].
      + cbn [to] in H. apply bigint_out in H. destruct H as (z & Hz & ->). split; [exact Logic.I|].
        destruct (float_cases x) as [->|[(neg & ->)|D]]; try (cbn in Hz; discriminate).
        pose proof (bigfloat_to_bigint_exact x (fvalue x) 0 D) as X. rewrite Hz in X. apply exact_to_bigint_some in X.
        apply (same_number_finite _ _ (fvalue x)); [exact D|exact X].
      + cbn [to] in H. done_inj H. split; [split; assumption|]. unfold same_number. auto.
    - (* big.Rat *)
      destruct t as [k'|sz'| | | |]; [| | |cbn in NL; tauto| |exfalso; apply Nt; reflexivity].
      + destruct o as [o| | | | | |]; cbn in Ho; try tauto. cbn [to] in H.
        assert (X : exact_to_int k' q o (via64 k' (if is_signed k' then bigrat_to_int64 q else bigrat_to_uint64 q) o)).
        { apply via64_exact; [|apply integral_dec, Hv]. intros o'.
          pose proof (bigrat64_exact (is_signed k') q o' Hv) as G. destruct (is_signed k'); exact G. }
        destruct (via64 k' _ o) as [e r]. done_inj H. apply exact_to_int_some in X. destruct X as [X1 X2]. split; [exact X2|].
        apply (same_number_finite _ _ q); [cbn; reflexivity|exact X1].
      + destruct sz'; [cbn in NL; tauto|]. destruct o as [|o| | | | |]; cbn in Ho; try tauto. cbn [to] in H.
        pose proof (bigrat_to_float_exact S64 q) as X. destruct (bigrat_to_float S64 q) as [e r]. done_inj H. apply exact_to_float_some in X.
        destruct X as [X1 X2]. split; [exact X1|]. apply (same_number_finite _ _ q); [cbn; reflexivity|exact X2].
      + cbn [to] in H. apply bigint_out in H. destruct H as (z & Hz & ->). split; [exact Logic.I|].
        pose proof (bigrat_to_bigint_exact q 0 Hv) as X. rewrite Hz in X. apply exact_to_bigint_some in X.
        apply (same_number_finite _ _ q); [cbn; reflexivity|exact X].
      + cbn [to] in H. done_inj H. split; [exact Hv|]. unfold same_number. auto.
  Qed.

  Lemma number_int k w q : well_typed (TI k) w -> number w q -> exists z, (q == inject_Z z)%Q /\ in_type k z.
  Proof. destruct w; cbn; try tauto. eauto. Qed.
  Lemma number_float f w q : well_typed (TF f) w -> number w q -> representable (fmt_of f) q.
  Proof. destruct w; cbn; try tauto. intros H1 H2. eapply denotes_representable; eassumption. Qed.
  Lemma number_bigint w q : well_typed TBigInt w -> number w q -> integral q.
  Proof. destruct w; cbn; try tauto. intros _ H. exists z. exact H. Qed.
  Lemma exact_to_int_done k q o r : (exists z, (q == inject_Z z)%Q /\ in_type k z) -> exact_to_int k q o r -> exists z, r = (None, z).
  Proof. intros (z & E & D) [H _]. exists z. apply H; assumption. Qed.
  Lemma exact_to_bigint_done q o r : integral q -> exact_to_bigint q o r -> exists z, r = (None, z).
  Proof. intros (z & E) [H _]. exists z. apply H; assumption. Qed.
  Lemma exact_to_float_done f q r : representable f q -> exact_to_float f q r -> exists x, r = (None, x).
  Proof. intros R [H _]. destruct (H R) as (E & _ & _). destruct r as [e x]. cbn in E. subst e. eauto. Qed.

  Lemma to_complete s t v o w q : well_typed s v -> out_typed t o -> numeric s -> numeric t -> ~ lossy s t ->
    number v q -> well_typed t w -> number w q -> exists r, TO s t v o = Done (None, r).
  Proof.
    intros Hv Ho Ns Nt NL Nv Hw Nw. destruct s as [k|sz| | | |]; [| | | | |exfalso; apply Ns; reflexivity];
      destruct v as [z|x|z|x|p|l|]; cbn in Hv; try tauto; cbn [number] in Nv.
    - destruct t as [k'|sz'| | | |]; [| | | | |exfalso; apply Nt; reflexivity]; cbn [to]; try (eexists; reflexivity).
      + destruct o as [o| | | | | |]; cbn in Ho; try tauto. destruct (number_int _ _ _ Hw Nw) as (z' & E & D).
        destruct (to_int_exact k k' z o Hv) as (r & -> & X). apply exact_to_int_of_z in X.
        assert (D' : exists z', (inject_Z z == inject_Z z')%Q /\ in_type k' z') by (exists z'; split; [rewrite <- Nv; exact E|exact D]).
        destruct (exact_to_int_done _ _ _ _ D' X) as (y & ->). eexists. reflexivity.
      + destruct o as [|o| | | | |]; cbn in Ho; try tauto. assert (R := number_float _ _ _ Hw Nw). apply (rep_eq _ _ _ Nv) in R.
        destruct (float_table k sz'); [|eexists; reflexivity]. rewrite (int_to_float_exact oor k sz' z o Hv R). eexists. reflexivity.
    - destruct t as [k'|sz'| | | |]; [| | | |destruct sz; cbn in NL; tauto|exfalso; apply Nt; reflexivity].
      + destruct sz; [|cbn in NL; tauto]. destruct o as [o| | | | | |]; cbn in Ho; try tauto.
        assert (Hk : num_bits k' <= 32) by (destruct k'; cbn in NL |- *; try tauto; lia).
        destruct (exact_to_int_done k' q o _ (number_int _ _ _ Hw Nw) (float32_int_ok k' x q o Hk Hv Nv)) as (y & Ey).
        change (exists r, lift_i (float_int k' x o) = Done (None, r)). rewrite Ey. eexists. reflexivity.
      + destruct sz, sz'; cbn [to]; try (cbn in NL; tauto); try (eexists; reflexivity).
        destruct o as [|o| | | | |]; cbn in Ho; try tauto. eexists. reflexivity.
      + assert (G : exists z, float_to_bigint x 0 = (None, z)).
        { apply (exact_to_bigint_done q 0); [apply (number_bigint w); assumption|apply float_to_bigint_exact, Nv]. }
        destruct G as (z & G). destruct sz; cbn [to]; rewrite G; eexists; reflexivity.
      + assert (G : float_to_bigfloat x (Fin false 0 0) = (None, x)) by (destruct x; cbn in Nv; try tauto; reflexivity).
        destruct sz; cbn [to]; rewrite G; eexists; reflexivity.
    - destruct t as [k'|sz'| | | |]; [| | | | |exfalso; apply Nt; reflexivity]; cbn [to]; try (eexists; reflexivity).
      + destruct o as [o| | | | | |]; cbn in Ho; try tauto. destruct (number_int _ _ _ Hw Nw) as (z' & E & D).
        assert (X : exact_to_int k' (inject_Z z) o (via64 k' (if is_signed k' then bigint_to_int64 z else bigint_to_uint64 z) o)).
        { apply via64_exact; [|left; exists z; reflexivity]. intros o'. apply exact_to_int_of_z.
          pose proof (bigint64_exact (is_signed k') z o') as G. destruct (is_signed k'); exact G. }
        destruct (exact_to_int_done k' (inject_Z z) o _ ltac:(exists z'; split; [rewrite <- Nv; exact E|exact D]) X) as (y & Ey).
        unfold lift_i. rewrite Ey. eexists. reflexivity.
      + destruct sz'; [cbn in NL; tauto|]. destruct o as [|o| | | | |]; cbn in Ho; try tauto.
        assert (R := number_float _ _ _ Hw Nw). apply (rep_eq S64 _ _ Nv) in R.
        destruct (exact_to_float_done _ _ _ R (bigint_to_float_exact S64 z)) as (y & Ey). unfold lift_f. rewrite Ey. eexists. reflexivity.
    - destruct Hv as [Nan Nn]. change (nonneg_mantissa x) in Nn.
      destruct t as [k'|sz'| | | |]; [| | | |cbn in NL; tauto|exfalso; apply Nt; reflexivity]; cbn [to]; try (eexists; reflexivity).
      + destruct o as [o| | | | | |]; cbn in Ho; try tauto. pose proof (number_int _ _ _ Hw Nw) as D.
        assert (X : exact_to_int k' q o (via64 k' (if is_signed k' then bigfloat_to_int64 x else bigfloat_to_uint64 x) o)).
        { apply via64_exact; [|apply integral_dec']. intros o'.
          pose proof (bigfloat64_exact (is_signed k') x q o' Nv) as G. destruct (is_signed k'); exact G. }
        destruct (exact_to_int_done _ _ _ _ D X) as (y & Ey). unfold lift_i. rewrite Ey. eexists. reflexivity.
      + destruct sz'; [cbn in NL; tauto|]. destruct o as [|o| | | | |]; cbn in Ho; try tauto.
        assert (R := number_float _ _ _ Hw Nw).
        destruct (exact_to_float_done _ _ _ R (bigfloat_to_float_exact S64 x q Nn Nv)) as (y & Ey). unfold lift_f. rewrite Ey. eexists. reflexivity.
      + destruct (exact_to_bigint_done q 0 _ (number_bigint w q Hw Nw) (bigfloat_to_bigint_exact x q 0 Nv)) as (z & G). rewrite G. eexists. reflexivity.
    - destruct t as [k'|sz'| | | |]; [| | |cbn in NL; tauto| |exfalso; apply Nt; reflexivity]; cbn [to]; try (eexists; reflexivity).
      + destruct o as [o| | | | | |]; cbn in Ho; try tauto. destruct (number_int _ _ _ Hw Nw) as (z' & E & D).
        assert (X : exact_to_int k' p o (via64 k' (if is_signed k' then bigrat_to_int64 p else bigrat_to_uint64 p) o)).
        { apply via64_exact; [|apply integral_dec, Hv]. intros o'.
          pose proof (bigrat64_exact (is_signed k') p o' Hv) as G. destruct (is_signed k'); exact G. }
        destruct (exact_to_int_done k' p o _ ltac:(exists z'; split; [rewrite <- Nv; exact E|exact D]) X) as (y & Ey).
        unfold lift_i. rewrite Ey. eexists. reflexivity.
      + destruct sz'; [cbn in NL; tauto|]. destruct o as [|o| | | | |]; cbn in Ho; try tauto.
        assert (R := number_float _ _ _ Hw Nw). apply (rep_eq S64 _ _ Nv) in R.
        destruct (exact_to_float_done _ _ _ R (bigrat_to_float_exact S64 p)) as (y & Ey). unfold lift_f. rewrite Ey. eexists. reflexivity.
      + destruct (exact_to_bigint_done p 0 _ (integral_eq _ _ Nv (number_bigint w q Hw Nw)) (bigrat_to_bigint_exact p 0 Hv)) as (z & G). rewrite G. eexists. reflexivity.
  Qed.
End To.
