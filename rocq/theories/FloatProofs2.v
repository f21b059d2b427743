(** Conversions to a binary format or precision. *)
From Coq Require Import ZArith List QArith Qpower Qabs Lia Lqa ZifyBool.
From Verif Require Import Base Float FloatSpec FloatProofs.
Close Scope Q_scope.
Open Scope Z_scope.

Lemma two_le : 2 <= 2. Proof. lia. Qed.
Notation P2 e := (Qpower (inject_Z 2) e).

Lemma Qmake_fr n d : 0 < d -> (Qmake n (Z.to_pos d) == fr n d)%Q.
Proof. intros H. unfold fr. rewrite Qmake_Qdiv, Z2Pos.id by exact H. reflexivity. Qed.

Lemma frac_spec m e : 0 < snd (frac m e) /\ (fr (fst (frac m e)) (snd (frac m e)) == digits 2 m e)%Q /\ (0 < m -> 0 < fst (frac m e)) /\
  (m = 0 -> fst (frac m e) = 0).
Proof.
  unfold frac. pose proof (scale_spec 2 two_le (- e) m 1 ltac:(lia)) as H. destruct (scale 2 (- e) m 1) as [n d] eqn:E. cbn [fst snd].
  destruct H as (H1 & H2 & H3). zsplit; [exact H1| |exact H2|].
  - rewrite H3. unfold fr, digits. rewrite P_opp. field; repeat split; first [apply P_nz, two_le|discriminate].
  - intros ->. unfold scale in E. destruct (0 <=? - e); injection E as <- <-; reflexivity.
Qed.

Lemma digits_opp b m e : (digits b (- m) e == - digits b m e)%Q.
Proof. unfold digits. rewrite inject_Z_opp. ring. Qed.

Lemma denotes_fvalue x : finite x -> denotes x (fvalue x).
Proof.
  destruct x as [|neg|neg m e]; cbn [finite]; try tauto. intros _. unfold denotes, fvalue.
  destruct (frac_spec (if neg then - m else m) e) as (H1 & H2 & _). destruct (frac _ e) as [n d]. cbn [fst snd] in *.
  rewrite Qred_correct, Qmake_fr by exact H1. exact H2.
Qed.
Lemma denotes_unique x q r : denotes x q -> denotes x r -> (q == r)%Q.
Proof. destruct x; cbn; try tauto. intros -> ->. reflexivity. Qed.
Lemma denotes_eq x q r : (q == r)%Q -> denotes x q -> denotes x r.
Proof. destruct x; cbn; try tauto. intros E H. rewrite <- E. exact H. Qed.
Lemma denotes_finite x q : denotes x q -> finite x. Proof. destruct x; cbn; tauto. Qed.
Lemma denotes_value x q : denotes x q -> (fvalue x == q)%Q.
Proof. intros H. eapply denotes_unique; [|exact H]. apply denotes_fvalue, (denotes_finite x q H). Qed.
Lemma exact_iff q x : exact q x = true <-> denotes x q.
Proof.
  unfold exact. split.
  - destruct x as [|neg|neg m e]; try discriminate. intros H. apply Qeq_bool_iff in H.
    apply (denotes_eq _ (fvalue (Fin neg m e))); [symmetry; exact H|]. apply denotes_fvalue. exact Logic.I.
  - destruct x as [|neg|neg m e]; try (cbn; tauto). intros H. apply Qeq_bool_iff. symmetry. apply denotes_value, H.
Qed.

Lemma Qlt_digits_mono (u v : Z) e : u < v -> (digits 2 u e < digits 2 v e)%Q.
Proof. intros H. unfold digits. apply Qmult_lt_r; [apply P_pos, two_le|]. rewrite <- Zlt_Qlt. exact H. Qed.
Lemma Qle_digits_inv (u v : Z) e : (digits 2 u e <= digits 2 v e)%Q -> u <= v.
Proof. unfold digits. intros H. apply Qmult_le_r in H; [|apply P_pos, two_le]. rewrite <- Zle_Qle in H. exact H. Qed.
Lemma Qlt_digits_inv (u v : Z) e : (digits 2 u e < digits 2 v e)%Q -> u < v.
Proof. unfold digits. intros H. apply Qmult_lt_r in H; [|apply P_pos, two_le]. rewrite <- Zlt_Qlt in H. exact H. Qed.
Lemma digits_shift m k e : 0 <= k -> (digits 2 m (k + e) == digits 2 (m * 2 ^ k) e)%Q.
Proof. intros H. unfold digits. rewrite inject_Z_mult, P_plus, P_Z by lia. ring. Qed.

(** powers of two are ordered as their exponents *)
Lemma P2_lt_inv a c : (P2 a < P2 c)%Q -> a < c.
Proof.
  intros H. destruct (Z_lt_ge_dec a c) as [?|G]; [assumption|exfalso].
  pose proof (P_mono 2 two_le c a ltac:(lia)) as H1. apply (Qlt_irrefl (P2 a)). eapply Qlt_le_trans; eassumption.
Qed.

Section Fmt.
  Variable f : fmt.
  Hypotheses (Hp : 1 <= fp f) (He : femin f <= femax f).

  Definition normal (me : Z * Z) : Z * Z := if fst me =? 2 ^ fp f then (2 ^ (fp f - 1), snd me + 1) else me.
  Lemma normal_digits me : (digits 2 (fst (normal me)) (snd (normal me)) == digits 2 (fst me) (snd me))%Q.
  Proof.
    unfold normal. destruct (fst me =? 2 ^ fp f) eqn:C; [|reflexivity]. cbn [fst snd]. apply Z.eqb_eq in C. rewrite C.
    replace (snd me + 1) with (1 + snd me) by lia. rewrite digits_shift by lia.
    replace (2 ^ (fp f - 1) * 2 ^ 1) with (2 ^ fp f); [reflexivity|]. rewrite <- Z.pow_add_r by lia. f_equal. lia.
  Qed.
  Lemma to_fmt_unfold neg n d : 0 < n -> to_fmt f neg n d =
    let me := normal (round 2 (fp f) (Some (femin f)) n d) in if femax f <? snd me then Inf neg else Fin neg (fst me) (snd me).
  Proof.
    intros Hn. unfold to_fmt, normal. destruct (n =? 0) eqn:C; [lia|]. destruct (round _ _ _ _ _) as [m e]. cbn [fst snd].
    destruct (m =? 2 ^ fp f); reflexivity.
  Qed.

  Lemma normal_range n d : 0 < n -> 0 < d -> let me := normal (round 2 (fp f) (Some (femin f)) n d) in
    0 <= fst me < 2 ^ fp f /\ femin f <= snd me.
  Proof.
    intros Hn Hd. cbn zeta. pose proof (round_range 2 two_le (fp f) (Some (femin f)) n d Hp Hn Hd) as R.
    pose proof (round_e_min 2 (fp f) (Some (femin f)) n d) as E. unfold normal.
    destruct (round 2 (fp f) (Some (femin f)) n d) as [m e]. cbn [fst snd] in *.
    destruct (m =? 2 ^ fp f) eqn:C; cbn [fst snd].
    - assert (0 < 2 ^ (fp f - 1)) by (apply Z.pow_pos_nonneg; lia).
      assert (2 ^ fp f = 2 * 2 ^ (fp f - 1)) by (rewrite <- Z.pow_succ_r by lia; f_equal; lia). lia.
    - lia.
  Qed.

  Lemma to_fmt_is_float neg n d : 0 <= n -> 0 < d -> is_float f (to_fmt f neg n d).
  Proof.
    intros Hn Hd. destruct (Z.eq_dec n 0) as [->|Hne].
    - cbn. split; [|lia]. split; [lia|]. apply Z.pow_pos_nonneg; lia.
    - rewrite to_fmt_unfold by lia. cbn zeta. pose proof (normal_range n d ltac:(lia) Hd) as R. cbn zeta in R.
      destruct (femax f <? snd _) eqn:C; cbn; [exact Logic.I|]. lia.
  Qed.

  (** no larger than the largest finite value: finite, and nearest *)
  Lemma to_fmt_nearest neg n d : 0 <= n -> 0 < d -> (fr n d <= digits 2 (2 ^ fp f - 1) (femax f))%Q ->
    exists m e, to_fmt f neg n d = Fin neg m e /\
      (forall m' e', Z.abs m' < 2 ^ fp f -> femin f <= e' -> (Qabs (fr n d - digits 2 m e) <= Qabs (fr n d - digits 2 m' e'))%Q).
  Proof.
    intros Hn Hd Hmax. destruct (Z.eq_dec n 0) as [->|Hne].
    - exists 0, (femin f). split; [reflexivity|]. intros m' e' _ _.
      assert (E : (fr 0 d - digits 2 0 (femin f) == 0)%Q) by (unfold fr, digits; field; apply injZ_nz, Hd).
      rewrite E. change (Qabs 0) with 0%Q. apply Qabs_nonneg.
    - rewrite to_fmt_unfold by lia. cbn zeta.
      set (r := round 2 (fp f) (Some (femin f)) n d).
      pose proof (round_nearest 2 two_le (fp f) (Some (femin f)) n d Hp ltac:(lia) Hd) as N. fold r in N.
      assert (G : snd (normal r) <= femax f).
      { pose proof (top_spec 2 two_le n d ltac:(lia) Hd) as [T1 T2].
        assert (T3 : top 2 n d < fp f + femax f).
        { apply P2_lt_inv. rewrite P_plus by exact two_le. rewrite (P_Z 2 (fp f)) by lia.
          eapply Qle_lt_trans; [exact T1|]. eapply Qle_lt_trans; [exact Hmax|]. apply (Qlt_digits_mono (2 ^ fp f - 1) (2 ^ fp f)). lia. }
        pose proof (round_e 2 (fp f) (Some (femin f)) n d) as Re. fold r in Re.
        assert (snd r <= femax f) by (destruct Re as [->|Re]; [lia|injection Re; lia]).
        unfold normal. destruct (fst r =? 2 ^ fp f) eqn:C; cbn [snd]; [|lia].
        destruct (Z.eq_dec (snd r) (femax f)) as [Eq|]; [exfalso|lia].
        apply Z.eqb_eq in C.
        destruct (round_m 2 two_le (fp f) (Some (femin f)) n d ltac:(lia) Hd) as (n' & d' & _ & Hd' & Em & Ef). fold r in Em, Ef.
        assert (U : rne n' d' <= 2 ^ fp f - 1).
        { apply rne_mono_ub; [exact Hd'|].
          assert (L : (fr n' d' <= inject_Z (2 ^ fp f - 1))%Q).
          { rewrite Ef. apply Qle_shift_div_r; [apply P_pos, two_le|]. rewrite Eq. exact Hmax. }
          rewrite fr_le in L by exact Hd'. rewrite <- inject_Z_mult, <- Zle_Qle in L. lia. }
        rewrite <- Em in U. lia. }
      exists (fst (normal r)), (snd (normal r)). split. { destruct (femax f <? _) eqn:C; [lia|reflexivity]. }
      intros m' e' Hm' He'. rewrite normal_digits. apply N; assumption.
  Qed.

  Lemma max_bound m e : Z.abs m < 2 ^ fp f -> e <= femax f -> (digits 2 m e <= digits 2 (2 ^ fp f - 1) (femax f))%Q.
  Proof.
    intros Hm Hle. apply Qle_trans with (digits 2 (2 ^ fp f - 1) e).
    - unfold digits. apply Qmult_le_r; [apply P_pos, two_le|]. rewrite <- Zle_Qle. lia.
    - unfold digits. rewrite !(Qmult_comm (inject_Z _)).
      assert (H0 : (0 <= inject_Z (2 ^ fp f - 1))%Q). { change 0%Q with (inject_Z 0). rewrite <- Zle_Qle. pose proof (Z.pow_pos_nonneg 2 (fp f)). lia. }
      apply Qmult_le_compat_r; [apply P_mono; [exact two_le|exact Hle]|exact H0].
  Qed.

  Lemma representable_iff q : representable f q <-> exists m e, Z.abs m < 2 ^ fp f /\ femin f <= e <= femax f /\ (q == digits 2 m e)%Q.
  Proof.
    split.
    - intros (x & Hx & Hq). destruct x as [|neg|neg m e]; cbn in Hq; try tauto. cbn in Hx.
      exists (if neg then - m else m), e. zsplit; [destruct neg; lia|lia|lia|exact Hq].
    - intros (m & e & Hm & H1 & H2). exists (Fin (m <? 0) (Z.abs m) e). cbn. split; [lia|].
      rewrite H2. destruct (m <? 0) eqn:C; [replace (- Z.abs m) with m by lia|replace (Z.abs m) with m by lia]; reflexivity.
  Qed.

  Lemma to_fmt_exact neg n d : 0 <= n -> 0 < d -> representable f (fr n d) ->
    exists m e, to_fmt f neg n d = Fin neg m e /\ (digits 2 m e == fr n d)%Q.
  Proof.
    intros Hn Hd R. apply representable_iff in R. destruct R as (m' & e' & Hm & Hle & Eq).
    destruct (to_fmt_nearest neg n d Hn Hd) as (m & e & E & N).
    { rewrite Eq. apply max_bound; lia. }
    exists m, e. split; [exact E|]. pose proof (N m' e' Hm ltac:(lia)) as H. rewrite <- Eq in H.
    assert (Z0 : (fr n d - fr n d == 0)%Q) by ring. rewrite Z0 in H. change (Qabs 0) with 0%Q in H.
    apply Qabs_Qle_condition in H. destruct H as [H1 H2]. change (Qopp 0) with 0%Q in H1.
    set (x := fr n d) in *. set (y := digits 2 m e) in *. lra.
  Qed.

  Lemma signed_frac (neg : bool) n d : 0 < d -> (fr (if neg then (- n)%Z else n) d == if neg then - fr n d else fr n d)%Q.
  Proof. intros H. unfold fr. destruct neg; [|reflexivity]. rewrite inject_Z_opp. field. apply injZ_nz, H. Qed.

  Lemma representable_opp q : representable f q -> representable f (- q).
  Proof.
    rewrite !representable_iff. intros (m & e & H1 & H2 & H3). exists (- m), e. zsplit; try lia. rewrite digits_opp, H3. reflexivity.
  Qed.
  Lemma representable_eq q r : (q == r)%Q -> representable f q -> representable f r.
  Proof. rewrite !representable_iff. intros E (m & e & H1 & H2 & H3). exists m, e. rewrite <- E. auto. Qed.

  (** the signed number n/d: exact when and only when it is a value of the format *)
  Lemma to_fmt_denotes v d : 0 < d -> representable f (fr v d) -> denotes (to_fmt f (v <? 0) (Z.abs v) d) (fr v d).
  Proof.
    intros Hd R. assert (R' : representable f (fr (Z.abs v) d)).
    { destruct (v <? 0) eqn:C.
      - apply (representable_eq (- fr v d)); [|apply representable_opp, R]. replace (Z.abs v) with (- v) by lia.
        unfold fr. rewrite inject_Z_opp. field. apply injZ_nz, Hd.
      - replace (Z.abs v) with v by lia. exact R. }
    destruct (to_fmt_exact (v <? 0) (Z.abs v) d ltac:(lia) Hd R') as (m & e & -> & E). cbn.
    destruct (v <? 0) eqn:C.
    - rewrite digits_opp, E. replace (Z.abs v) with (- v) by lia. unfold fr. rewrite inject_Z_opp. field. apply injZ_nz, Hd.
    - rewrite E. replace (Z.abs v) with v by lia. reflexivity.
  Qed.
  Lemma denotes_representable x q : is_float f x -> denotes x q -> representable f q.
  Proof. intros H1 H2. exists x. auto. Qed.
End Fmt.

Lemma f32_ok : 1 <= fp f32 /\ femin f32 <= femax f32. Proof. cbn. lia. Qed.
Lemma f64_ok : 1 <= fp f64 /\ femin f64 <= femax f64. Proof. cbn. lia. Qed.

(** ** Precision *)
Lemma to_prec_nearest p neg n d : 1 <= p -> 0 <= n -> 0 < d -> exists m e, to_prec p neg n d = Fin neg m e /\ 0 <= m /\
  (forall m' e', Z.abs m' < 2 ^ p -> (Qabs (fr n d - digits 2 m e) <= Qabs (fr n d - digits 2 m' e'))%Q).
Proof.
  intros Hp Hn Hd. unfold to_prec. destruct (n =? 0) eqn:C.
  - apply Z.eqb_eq in C. subst n. exists 0, 0. zsplit; [reflexivity|lia|]. intros m' e' _.
    assert (E : (fr 0 d - digits 2 0 0 == 0)%Q) by (unfold fr, digits; field; apply injZ_nz, Hd).
    rewrite E. change (Qabs 0) with 0%Q. apply Qabs_nonneg.
  - pose proof (round_nearest 2 two_le p None n d Hp ltac:(lia) Hd) as N.
    pose proof (round_range 2 two_le p None n d Hp ltac:(lia) Hd) as R.
    destruct (round 2 p None n d) as [m e]. cbn [fst snd] in *. exists m, e. zsplit; [reflexivity|lia|]. auto.
Qed.
Lemma to_prec_exact p neg n d : 1 <= p -> 0 <= n -> 0 < d -> short 2 p (fr n d) ->
  exists m e, to_prec p neg n d = Fin neg m e /\ 0 <= m /\ (digits 2 m e == fr n d)%Q.
Proof.
  intros Hp Hn Hd (m' & e' & Hm & Eq). destruct (to_prec_nearest p neg n d Hp Hn Hd) as (m & e & E & H0 & N).
  exists m, e. zsplit; [exact E|exact H0|]. pose proof (N m' e' Hm) as H. rewrite <- Eq in H.
  assert (Z0 : (fr n d - fr n d == 0)%Q) by ring. rewrite Z0 in H. change (Qabs 0) with 0%Q in H.
  apply Qabs_Qle_condition in H. destruct H as [H1 H2]. change (Qopp 0) with 0%Q in H1.
  set (x := fr n d) in *. set (y := digits 2 m e) in *. lra.
Qed.
Lemma to_prec_denotes p v d : 1 <= p -> 0 < d -> short 2 p (fr v d) -> denotes (to_prec p (v <? 0) (Z.abs v) d) (fr v d).
Proof.
  intros Hp Hd R. assert (R' : short 2 p (fr (Z.abs v) d)).
  { destruct R as (m & e & Hm & E). destruct (v <? 0) eqn:C.
    - exists (- m), e. split; [lia|]. rewrite digits_opp, <- E. replace (Z.abs v) with (- v) by lia.
      unfold fr. rewrite inject_Z_opp. field. apply injZ_nz, Hd.
    - exists m, e. split; [lia|]. replace (Z.abs v) with v by lia. exact E. }
  destruct (to_prec_exact p (v <? 0) (Z.abs v) d Hp ltac:(lia) Hd R') as (m & e & -> & _ & E). cbn.
  destruct (v <? 0) eqn:C.
  - rewrite digits_opp, E. replace (Z.abs v) with (- v) by lia. unfold fr. rewrite inject_Z_opp. field. apply injZ_nz, Hd.
  - rewrite E. replace (Z.abs v) with v by lia. reflexivity.
Qed.
Lemma short_int p v : Z.abs v < 2 ^ p -> short 2 p (inject_Z v).
Proof. intros H. exists v, 0. split; [exact H|]. unfold digits. change (P2 0) with 1%Q. ring. Qed.
Lemma fr_1 v : (fr v 1 == inject_Z v)%Q.
Proof. unfold fr. change (inject_Z 1) with 1%Q. field. Qed.
