(** How far BigRatToBigFloat is from the number: it writes at least 53 decimals and keeps at least 53 bits of them. *)
From Coq Require Import ZArith List QArith Qpower Qabs Bool Lia Lqa.
From Verif Require Import Base Float FloatSpec FloatProofs FloatProofs2 ConvFloat ConvFloatSpec ConvFloatProofs3 ConvFloatProofs4.
Close Scope Q_scope.
Open Scope Z_scope.

Lemma round_rel b p n d : 2 <= b -> 1 <= p -> 0 < n -> 0 < d -> let '(m, e) := round b p None n d in
  (Qabs (fr n d - digits b m e) * inject_Z (2 * b ^ (p - 1)) <= fr n d)%Q.
Proof.
  intros Hb Hp Hn Hd. pose proof (round_m b Hb p None n d Hn Hd) as (n' & d' & Hn' & Hd' & Em & Ef).
  pose proof (round_e b p None n d) as Re. pose proof (top_spec b Hb n d Hn Hd) as [T _].
  destruct (round b p None n d) as [m e]. cbn [fst snd] in *. destruct Re as [Re|Re]; [|discriminate].
  set (pe := Qpower (inject_Z b) e) in *. assert (Pp : (0 < pe)%Q) by apply P_pos, Hb.
  assert (E1 : (fr n d == fr n' d' * pe)%Q). { rewrite Ef. field. apply P_nz, Hb. }
  assert (B : (Qabs (fr n' d' - inject_Z m) * inject_Z 2 <= 1)%Q).
  { pose proof (rne_bound n' d' Hd') as R. rewrite <- Em in R.
    assert (E2 : (fr n' d' - inject_Z m == inject_Z (n' - d' * m) / inject_Z d')%Q).
    { unfold fr. unfold Zminus. rewrite inject_Z_plus, inject_Z_opp, inject_Z_mult. field. apply injZ_nz, Hd'. }
    rewrite E2. unfold Qdiv. rewrite Qabs_Qmult. rewrite (Qabs_pos (/ inject_Z d')) by (apply Qinv_le_0_compat, Qlt_le_weak, injZ_pos, Hd').
    change (Qabs (inject_Z (n' - d' * m))) with (inject_Z (Z.abs (n' - d' * m))).
    assert (E3 : (inject_Z (Z.abs (n' - d' * m)) * / inject_Z d' * inject_Z 2 == inject_Z (2 * Z.abs (n' - d' * m)) / inject_Z d')%Q).
    { rewrite inject_Z_mult. field. apply injZ_nz, Hd'. }
    rewrite E3. apply Qle_shift_div_r; [apply injZ_pos, Hd'|]. rewrite Qmult_1_l, <- Zle_Qle. exact R. }
  assert (E4 : (Qabs (fr n d - digits b m e) == Qabs (fr n' d' - inject_Z m) * pe)%Q).
  { rewrite E1. unfold digits. fold pe. apply Qabs_scale, Pp. }
  assert (Pb : 0 < b ^ (p - 1)) by (apply Z.pow_pos_nonneg; lia).
  assert (E5 : (pe * inject_Z (b ^ (p - 1)) <= fr n d)%Q).
  { eapply Qle_trans; [|exact T]. replace (top b n d) with (e + (p - 1)) by lia.
    rewrite P_plus by exact Hb. fold pe. rewrite (P_Z b (p - 1)) by lia. apply Qle_refl. }
  rewrite E4, inject_Z_mult. set (a := Qabs (fr n' d' - inject_Z m)) in *.
  eapply Qle_trans; [|exact E5].
  assert (E6 : (a * pe * (inject_Z 2 * inject_Z (b ^ (p - 1))) == (a * inject_Z 2) * (pe * inject_Z (b ^ (p - 1))))%Q) by ring.
  rewrite E6. assert (Pq : (0 < pe * inject_Z (b ^ (p - 1)))%Q) by (apply Qmult_lt_0_compat; [exact Pp|apply injZ_pos, Pb]).
  rewrite <- (Qmult_1_l (pe * inject_Z (b ^ (p - 1)))) at 2. apply Qmult_le_compat_r; [exact B|apply Qlt_le_weak, Pq].
Qed.
Definition eps52 : Q := 1 # 4503599627370496.
Definition eps53d : Q := 1 # (10 ^ 53)%positive.
Lemma to_prec_rel p neg n d : 53 <= p -> 0 <= n -> 0 < d -> exists m e, to_prec p neg n d = Fin neg m e /\ 0 <= m /\ (Qabs (fr n d - digits 2 m e) <= fr n d * eps52)%Q.
Proof.
  intros Hp Hn Hd. unfold to_prec. destruct (n =? 0) eqn:C.
  - apply Z.eqb_eq in C. subst n. exists 0, 0. split; [reflexivity|]. split; [lia|]. assert (E : (fr 0 d == 0)%Q) by (unfold fr; field; apply injZ_nz, Hd).
    rewrite E. unfold digits. rewrite Qmult_0_l. vm_compute. discriminate.
  - apply Z.eqb_neq in C. assert (N : 0 < n) by lia. pose proof (round_rel 2 p n d ltac:(lia) ltac:(lia) N Hd) as R.
    pose proof (round_range 2 two_le p None n d ltac:(lia) N Hd) as M.
    destruct (round 2 p None n d) as [m e]. cbn [fst snd] in *. exists m, e. split; [reflexivity|]. split; [lia|].
    set (a := Qabs (fr n d - digits 2 m e)) in *. assert (A : (0 <= a)%Q) by apply Qabs_nonneg.
    assert (W : (a * inject_Z 4503599627370496 <= fr n d)%Q).
    { eapply Qle_trans; [|exact R]. rewrite !(Qmult_comm a). apply Qmult_le_compat_r; [|exact A]. rewrite <- Zle_Qle.
      change 4503599627370496 with (2 ^ 52). assert (2 ^ 52 <= 2 ^ (p - 1)) by (apply Z.pow_le_mono_r; lia). lia. }
    unfold eps52. change (inject_Z 4503599627370496) with (4503599627370496 # 1)%Q in W. generalize dependent (fr n d). intros v. intros. lra.
Qed.
Lemma rat_to_float_error q y : denotes (bigrat_to_bigfloat q) y -> (Qabs (q - y) <= Qabs q * eps52 + eps53d)%Q.
Proof.
  unfold bigrat_to_bigfloat, round_literal. set (p := Z.max 53 _). assert (Hp : 53 <= p) by (unfold p; lia). clearbody p.
  set (den := Zpos (Qden q)). assert (Hden : 0 < den) by (unfold den; lia). set (T := 10 ^ p). assert (HT : 10 ^ 53 <= T) by (apply Z.pow_le_mono_r; lia).
  set (w := (2 * Z.abs (Qnum q) * T + den) / (2 * den)).
  assert (W : 2 * Z.abs (Z.abs (Qnum q) * T - w * den) <= den).
  { unfold w. pose proof (Z.div_mod (2 * Z.abs (Qnum q) * T + den) (2 * den) ltac:(lia)) as DM. pose proof (Z.mod_pos_bound (2 * Z.abs (Qnum q) * T + den) (2 * den) ltac:(lia)) as MB.
    set (k := (2 * Z.abs (Qnum q) * T + den) / (2 * den)) in *. nia. }
  assert (W0 : 0 <= w) by (apply Z.div_pos; nia). clearbody w.
  destruct (to_prec_rel p (Qnum q <? 0) w T Hp W0 ltac:(lia)) as (m & e & -> & M & B). cbn [denotes]. intros Y.
  set (v := fr w T) in *.
  assert (Qa : (Qabs q == inject_Z (Z.abs (Qnum q)) / inject_Z den)%Q).
  { unfold Qabs, den. destruct q as [n d]. cbn [Qnum Qden]. apply Qmake_Qdiv. }
  assert (Pden : (0 < inject_Z den)%Q) by (apply injZ_pos, Hden). assert (PT : (0 < inject_Z T)%Q) by (apply injZ_pos; lia).
  assert (D1 : (Qabs (Qabs q - v) <= (1 # 2) * eps53d)%Q).
  { assert (E : (Qabs q - v == inject_Z (Z.abs (Qnum q) * T - w * den) / (inject_Z den * inject_Z T))%Q).
    { rewrite Qa. unfold v, fr. unfold Zminus. rewrite inject_Z_plus, inject_Z_opp, !inject_Z_mult. field. split; intros Z0; [rewrite Z0 in PT; discriminate|rewrite Z0 in Pden; discriminate]. }
    rewrite E. unfold Qdiv. rewrite Qabs_Qmult.
    assert (PP : (0 < inject_Z den * inject_Z T)%Q) by (apply Qmult_lt_0_compat; assumption).
    rewrite (Qabs_pos (/ _)) by (apply Qinv_le_0_compat, Qlt_le_weak, PP). change (Qabs (inject_Z (Z.abs (Qnum q) * T - w * den))) with (inject_Z (Z.abs (Z.abs (Qnum q) * T - w * den))).
    apply Qle_shift_div_r; [exact PP|]. set (a := Z.abs (Z.abs (Qnum q) * T - w * den)) in *.
    assert (U : (1 <= eps53d * inject_Z T)%Q).
    { assert (X : (inject_Z (10 ^ 53) <= inject_Z T)%Q) by (rewrite <- Zle_Qle; exact HT). eapply Qle_trans; [|rewrite Qmult_comm; apply Qmult_le_compat_r; [exact X|vm_compute; discriminate]]. vm_compute. discriminate. }
    assert (V : (inject_Z a * 2 <= inject_Z den)%Q). { change 2%Q with (inject_Z 2). rewrite <- inject_Z_mult, <- Zle_Qle. lia. }
    assert (U2 : (inject_Z den <= inject_Z den * (eps53d * inject_Z T))%Q).
    { rewrite <- (Qmult_1_r (inject_Z den)) at 1. rewrite !(Qmult_comm (inject_Z den)). apply Qmult_le_compat_r; [exact U|apply Qlt_le_weak, Pden]. }
    assert (E2 : ((1 # 2) * eps53d * (inject_Z den * inject_Z T) == (1 # 2) * (inject_Z den * (eps53d * inject_Z T)))%Q) by ring. rewrite E2.
    generalize dependent (inject_Z den * (eps53d * inject_Z T))%Q. intros z U2 _. lra. }
  assert (V0 : (0 <= v)%Q) by (unfold v, fr; apply Qle_shift_div_l; [exact PT|]; rewrite Qmult_0_l; change 0%Q with (inject_Z 0); rewrite <- Zle_Qle; exact W0).
  (* the sign *)
  assert (S1 : (Qabs (q - y) == Qabs (Qabs q - digits 2 m e))%Q).
  { rewrite Y. assert (K : (if Qnum q <? 0 then (q == - Qabs q)%Q else (q == Qabs q)%Q)).
    { destruct (Qnum q <? 0) eqn:C; symmetry.
      - rewrite Qabs_neg; [ring|]. unfold Qle. cbn. lia.
      - apply Qabs_pos. unfold Qle. cbn. lia. }
    destruct (Qnum q <? 0).
    - rewrite K at 1. rewrite digits_opp. assert (E : (- Qabs q - - digits 2 m e == - (Qabs q - digits 2 m e))%Q) by ring. rewrite E. apply Qabs_opp.
    - rewrite K at 1. reflexivity. }
  rewrite S1. pose proof (Qabs_triangle (Qabs q - v) (v - digits 2 m e)) as Tr.
  assert (E : (Qabs q - v + (v - digits 2 m e) == Qabs q - digits 2 m e)%Q) by ring. rewrite E in Tr. clear E.
  assert (E3 : (0 < eps53d)%Q) by reflexivity.
  apply Qabs_Qle_condition in D1. destruct D1 as (D1 & D2).
  assert (E4 : (Qabs (Qabs q - v) <= (1 # 2) * eps53d)%Q) by (apply Qabs_Qle_condition; split; assumption).
  unfold eps52 in *. generalize dependent eps53d. intros d53. intros. generalize dependent (Qabs (Qabs q - digits 2 m e)). intros r. intros.
  generalize dependent (Qabs (Qabs q - v)). intros. generalize dependent (Qabs (v - digits 2 m e)). intros. lra.
Qed.
Lemma rat_ten_error q y : denotes (bigrat_to_bigfloat q) y -> nonneg_mantissa (bigrat_to_bigfloat q) ->
  (Qabs (q - ten_digits (bigrat_to_bigfloat q)) <= Qabs q * (1 # 1000000000) + eps53d * (1001 # 1000))%Q.
Proof.
  intros D M. pose proof (rat_to_float_error q y D) as A. pose proof (ten_rel_error _ y M D) as B.
  set (r := ten_digits (bigrat_to_bigfloat q)) in *. clearbody r. change (inject_Z (2 * 10 ^ 9)) with (2000000000 # 1)%Q in B.
  pose proof (Qabs_triangle (q - y) (y - r)) as T1. assert (E : (q - y + (y - r) == q - r)%Q) by ring. rewrite E in T1. clear E.
  pose proof (Qabs_triangle (y - q) q) as T2. assert (E : (y - q + q == y)%Q) by ring. rewrite E in T2. clear E. rewrite (Qabs_Qminus y q) in T2.
  pose proof (Qabs_nonneg q). assert (E3 : (0 < eps53d)%Q) by reflexivity.
  unfold eps52 in *. generalize dependent eps53d. intros d53. intros.
  generalize dependent (Qabs (q - r)). intros. generalize dependent (Qabs (q - y)). intros. generalize dependent (Qabs (y - r)). intros. generalize dependent (Qabs y). intros. generalize dependent (Qabs q). intros. lra.
Qed.
