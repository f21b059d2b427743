(** Proofs about ConvFloat.v. *)
From Coq Require Import ZArith List QArith Qpower Qabs Lia Lqa ZifyBool ZifyNat.
From Verif Require Import Base GoInt Conv ConvSpec ConvProofs Float FloatSpec FloatProofs FloatProofs2 ConvFloat ConvFloatSpec DecDigits.
From Verif Require Decimal.
From Coq Require Qcanon.
Close Scope Q_scope.
Open Scope Z_scope.

(** ** Numbers in lowest terms *)
Lemma Qred_int z : Qred (inject_Z z) = inject_Z z.
Proof. apply Qcanon.Qred_identity. cbn. apply Z.gcd_1_r. Qed.
Lemma lowest_int q z : Qred q = q -> (q == inject_Z z)%Q -> q = inject_Z z.
Proof. intros H E. rewrite <- H, <- (Qred_int z). apply Qred_complete, E. Qed.
Lemma den_1 q : Qden q = 1%positive -> q = inject_Z (Qnum q).
Proof. destruct q as [n d]. cbn. intros ->. reflexivity. Qed.
Lemma den_test q : Qred q = q -> (Pos.eqb (Qden q) 1 = true <-> integral q).
Proof.
  intros H. rewrite Pos.eqb_eq. split.
  - intros E. exists (Qnum q). rewrite (den_1 q E) at 1. reflexivity.
  - intros (z & E). rewrite (lowest_int q z H E). reflexivity.
Qed.
Lemma fvalue_red x : Qred (fvalue x) = fvalue x.
Proof.
  destruct x as [|neg|neg m e]; try reflexivity. unfold fvalue. destruct (frac _ e) as [n d]. apply Qcanon.Qred_involutive.
Qed.
Lemma inject_Z_inj a b : (inject_Z a == inject_Z b)%Q -> a = b.
Proof. unfold Qeq. cbn. lia. Qed.
Lemma fr_int n d w : 0 < d -> (fr n d == inject_Z w)%Q -> n = w * d.
Proof.
  intros Hd H. apply inject_Z_inj. rewrite inject_Z_mult, <- H. unfold fr. field. apply injZ_nz, Hd.
Qed.
Lemma integral_eq q r : (q == r)%Q -> integral q -> integral r.
Proof. intros E (z & H). exists z. rewrite <- E. exact H. Qed.

Lemma in_type_iff k v : in_type k v <-> lo_of k <= v <= hi_of k.
Proof. destruct k; unfold in_type, lo_of, hi_of, minS, maxS, maxU; cbn; lia. Qed.

Lemma fmt_ok s : 1 <= fp (fmt_of s) /\ femin (fmt_of s) <= femax (fmt_of s) /\ femin (fmt_of s) <= 0 <= femax (fmt_of s).
Proof. destruct s; cbn; lia. Qed.
Lemma rep_iff s q : representable (fmt_of s) q <->
  exists m e, Z.abs m < 2 ^ fp (fmt_of s) /\ femin (fmt_of s) <= e <= femax (fmt_of s) /\ (q == digits 2 m e)%Q.
Proof. apply representable_iff; apply fmt_ok. Qed.
Lemma rep_eq s q r : (q == r)%Q -> representable (fmt_of s) q -> representable (fmt_of s) r.
Proof. apply representable_eq, fmt_ok. Qed.
Lemma rep_small s v : Z.abs v < 2 ^ fp (fmt_of s) -> representable (fmt_of s) (inject_Z v).
Proof.
  intros H. apply rep_iff. exists v, 0. destruct (fmt_ok s) as (_ & _ & H0). zsplit; try lia.
  unfold digits. change (P2 0) with 1%Q. ring.
Qed.

(** ** IntToFloat *)
Lemma trunc_denotes oor k x v : 0 <= (match x with Fin _ m _ => m | _ => 0 end) -> denotes x (inject_Z v) -> in_type k v ->
  float_trunc oor k x = v.
Proof.
  destruct x as [|neg|neg m e]; cbn [denotes]; try tauto. intros Hm H Hv. unfold float_trunc.
  destruct (frac_spec m e) as (F1 & F2 & _). destruct (frac m e) as [n d]. cbn [fst snd] in *.
  assert (E : n = (if neg then - v else v) * d).
  { apply fr_int; [exact F1|]. rewrite F2. destruct neg; [|symmetry; exact H]. rewrite inject_Z_opp, H, digits_opp. ring. }
  rewrite E, Z.div_mul by lia. replace (if neg then - (if neg then - v else v) else if neg then - v else v) with v by (destruct neg; lia).
  apply in_type_iff in Hv. destruct ((lo_of k <=? v) && (v <=? hi_of k)) eqn:C; [reflexivity|lia].
Qed.
Lemma int_cast_float_ok s v : is_float (fmt_of s) (int_cast_float s v).
Proof. apply to_fmt_is_float; try apply fmt_ok; lia. Qed.
Lemma float_pos f x : is_float f x -> 0 <= match x with Fin _ m _ => m | _ => 0 end.
Proof. destruct x; cbn; lia. Qed.
Lemma int_cast_float_exact s v : representable (fmt_of s) (inject_Z v) -> denotes (int_cast_float s v) (inject_Z v).
Proof.
  intros R. apply (denotes_eq _ (fr v 1)); [apply fr_1|]. apply to_fmt_denotes; try apply fmt_ok; [lia|].
  apply (rep_eq s (inject_Z v)); [symmetry; apply fr_1|exact R].
Qed.

Lemma int_to_float_exact oor k s v o : in_type k v -> representable (fmt_of s) (inject_Z v) ->
  int_to_float oor k s v o = (None, int_cast_float s v).
Proof.
  intros Hv R. unfold int_to_float. rewrite (trunc_denotes oor k _ v).
  - rewrite Z.eqb_refl. reflexivity.
  - apply (float_pos (fmt_of s)), int_cast_float_ok.
  - apply int_cast_float_exact, R.
  - exact Hv.
Qed.

Lemma int_to_float_inexact oor k s v o : (forall x, representable (fmt_of s) (inject_Z (oor k x))) ->
  ~ representable (fmt_of s) (inject_Z v) -> int_to_float oor k s v o = (Some conv_err, o).
Proof.
  intros Ho R. unfold int_to_float. destruct (v =? float_trunc oor k (int_cast_float s v)) eqn:C; [exfalso|reflexivity].
  apply Z.eqb_eq in C. pose proof (int_cast_float_ok s v) as F. destruct (int_cast_float s v) as [|neg|neg m e] eqn:Ex.
  - cbn in C. apply R. rewrite C. apply Ho.
  - cbn in C. apply R. rewrite C. apply Ho.
  - unfold float_trunc in C. destruct (frac m e) as [n d] eqn:Ef.
    set (w := if neg then - (n / d) else n / d) in *. destruct ((lo_of k <=? w) && (w <=? hi_of k)); [|apply R; rewrite C; apply Ho].
    cbn in F. destruct F as [F1 F2]. destruct (Z_lt_ge_dec e 0) as [Neg|Pos].
    + apply R, rep_small. rewrite C. pose proof (frac_spec m e) as (G1 & _). rewrite Ef in G1. cbn [fst snd] in G1.
      unfold frac, scale in Ef. destruct (0 <=? - e) eqn:B; [|lia].
      pose proof (f_equal fst Ef) as En. cbn [fst] in En. subst n. clear Ef.
      assert (0 <= m / d <= m). { split; [apply Z.div_pos; lia|]. apply Z.div_le_upper_bound; nia. }
      subst w. destruct neg; lia.
    + apply R. apply (denotes_representable _ (Fin neg m e)); [cbn; lia|]. cbn [denotes].
      pose proof (frac_spec m e) as (G1 & G2 & _). rewrite Ef in G1, G2. cbn [fst snd] in *.
      assert (D1 : d = 1).
      { unfold frac, scale in Ef. pose proof (f_equal snd Ef) as En. destruct (0 <=? - e) eqn:B; cbn [snd] in En; [|lia].
        replace (- e) with 0 in En by lia. rewrite Z.pow_0_r in En. lia. }
      subst d. subst w. rewrite Z.div_1_r in C. rewrite fr_1 in G2. rewrite C. destruct neg; [|exact G2].
      rewrite inject_Z_opp, G2, digits_opp. reflexivity.
Qed.

(** ** Floats to integers and to other floats *)
Lemma to_bigint_gen q o : Qred q = q ->
  exact_to_bigint q o (if negb (Pos.eqb (Qden q) 1) then (Some conv_err, o) else (None, Qnum q)).
Proof.
  intros Hq. split.
  - intros z E. rewrite (lowest_int q z Hq E). reflexivity.
  - intros H. destruct (Pos.eqb (Qden q) 1) eqn:C; [exfalso; apply H, (den_test q Hq), C|].
    cbn. split; [discriminate|reflexivity].
Qed.
Lemma exact_to_bigint_eq q r o x : (q == r)%Q -> exact_to_bigint q o x -> exact_to_bigint r o x.
Proof.
  intros E [H1 H2]. split.
  - intros z Hz. apply H1. rewrite E. exact Hz.
  - intros H. apply H2. intros G. apply H, (integral_eq q r E G).
Qed.
Lemma exact_to_int_eq t q r o x : (q == r)%Q -> exact_to_int t q o x -> exact_to_int t r o x.
Proof.
  intros E [H1 H2]. split.
  - intros z Hz. apply H1. rewrite E. exact Hz.
  - intros H. apply H2. intros (z & G1 & G2). apply H. exists z. split; [rewrite <- E; exact G1|exact G2].
Qed.
Lemma float_to_bigint_exact x q o : denotes x q -> exact_to_bigint q o (float_to_bigint x o).
Proof.
  intros H. apply (exact_to_bigint_eq (fvalue x)); [apply denotes_value, H|].
  destruct x as [|neg|neg m e]; cbn [denotes] in H; try tauto. unfold float_to_bigint. cbn [is_inf is_nan orb].
  apply to_bigint_gen, fvalue_red.
Qed.
Lemma bigfloat_to_bigint_exact x q o : denotes x q -> exact_to_bigint q o (bigfloat_to_bigint x o).
Proof.
  intros H. apply (exact_to_bigint_eq (fvalue x)); [apply denotes_value, H|].
  destruct x as [|neg|neg m e]; cbn [denotes] in H; try tauto. unfold bigfloat_to_bigint. apply to_bigint_gen, fvalue_red.
Qed.
Lemma bigrat_to_bigint_exact q o : Qred q = q -> exact_to_bigint q o (bigrat_to_bigint q o).
Proof. apply to_bigint_gen. Qed.

(** via *big.Int or big.Rat to 64 bits *)
Definition k64 (signed : bool) : ikind := if signed then KInt64 else KUint64.
Lemma in64 (sg : bool) z : (if sg then (minS 64 <=? z) && (z <=? maxS 64) else (0 <=? z) && (z <=? maxU 64)) = true <-> in_type (k64 sg) z.
Proof. destruct sg; unfold in_type, minS, maxS, maxU; cbn; lia. Qed.
Lemma exact_to_int_of_z t z o r : exact_conversion t z o r -> exact_to_int t (inject_Z z) o r.
Proof.
  intros [H1 H2]. split.
  - intros z' E Ht. apply inject_Z_inj in E. subst z'. apply H1, Ht.
  - intros H. apply H2. intros Ht. apply H. exists z. split; [reflexivity|exact Ht].
Qed.
Lemma exact_to_int_none t q o r : ~ integral q -> fst r <> None -> snd r = o -> exact_to_int t q o r.
Proof.
  intros H H1 H2. split; [|auto]. intros z E _. exfalso. apply H. exists z. exact E.
Qed.
Lemma integral_dec q : Qred q = q -> integral q \/ ~ integral q.
Proof. intros H. destruct (Pos.eqb (Qden q) 1) eqn:C; [left; apply den_test; assumption|right]. intros G. apply (den_test q H) in G. congruence. Qed.

Lemma bigint64_exact (sg : bool) z o : exact_conversion (k64 sg) z o (if sg then bigint_to_int64 z o else bigint_to_uint64 z o).
Proof.
  unfold exact_conversion, bigint_to_int64, bigint_to_uint64. rewrite <- in64. destruct sg.
  - destruct ((minS 64 <=? z) && (z <=? maxS 64)); split; intros H; cbn; try reflexivity; try congruence. split; [discriminate|reflexivity].
  - destruct ((0 <=? z) && (z <=? maxU 64)); split; intros H; cbn; try reflexivity; try congruence. split; [discriminate|reflexivity].
Qed.
Lemma err_wrap (r : option err * Z) : (match r with (Some _, o) => (Some conv_err, o) | (None, v) => (None, v) end) = (match fst r with Some _ => Some conv_err | None => None end, snd r).
Proof. destruct r as [[e|] v]; reflexivity. Qed.
Lemma exact_conversion_wrap t z o r : exact_conversion t z o r -> exact_conversion t z o (match r with (Some _, o) => (Some conv_err, o) | (None, v) => (None, v) end).
Proof.
  intros [H1 H2]. split; intros H.
  - rewrite (H1 H). reflexivity.
  - destruct (H2 H) as [H3 H4]. destruct r as [[e|] v]; cbn in *; [split; [discriminate|exact H4]|congruence].
Qed.
Lemma bigfloat64_exact (sg : bool) x q o : denotes x q ->
  exact_to_int (k64 sg) q o (if sg then bigfloat_to_int64 x o else bigfloat_to_uint64 x o).
Proof.
  intros H. pose proof (bigfloat_to_bigint_exact x q 0 H) as [B1 B2].
  assert (D : integral q \/ ~ integral q).
  { destruct (integral_dec (fvalue x) (fvalue_red x)) as [G|G]; [left; apply (integral_eq (fvalue x))|right; intros G'; apply G, (integral_eq q)]; try assumption.
    - apply denotes_value, H.
    - symmetry. apply denotes_value, H. }
  destruct D as [(z & E)|N].
  - apply (exact_to_int_eq _ (inject_Z z)); [symmetry; exact E|]. apply exact_to_int_of_z.
    unfold bigfloat_to_int64, bigfloat_to_uint64. rewrite (B1 z E). pose proof (bigint64_exact sg z o) as G.
    destruct sg; apply exact_conversion_wrap, G.
  - destruct (B2 N) as [B3 _]. unfold bigfloat_to_int64, bigfloat_to_uint64.
    destruct (bigfloat_to_bigint x 0) as [[e|] v]; [|cbn in B3; congruence].
    apply exact_to_int_none; [exact N| |]; destruct sg; cbn; congruence.
Qed.
Lemma bigrat64_exact (sg : bool) q o : Qred q = q ->
  exact_to_int (k64 sg) q o (if sg then bigrat_to_int64 q o else bigrat_to_uint64 q o).
Proof.
  intros H. destruct (integral_dec q H) as [(z & E)|N].
  - rewrite (lowest_int q z H E). apply exact_to_int_of_z.
    unfold bigrat_to_int64, bigrat_to_uint64. change (Qden (inject_Z z)) with 1%positive. change (Qnum (inject_Z z)) with z.
    cbn [Pos.eqb negb orb]. pose proof (bigint64_exact sg z o) as G. unfold bigint_to_int64, bigint_to_uint64 in G.
    destruct sg; [destruct ((minS 64 <=? z) && (z <=? maxS 64))|destruct ((0 <=? z) && (z <=? maxU 64))]; exact G.
  - unfold bigrat_to_int64, bigrat_to_uint64. destruct (Pos.eqb (Qden q) 1) eqn:C.
    { exfalso. apply N, (den_test q H), C. }
    cbn [negb orb]. apply exact_to_int_none; [exact N| |]; destruct sg; cbn; congruence.
Qed.

(** from 64 bits to any integer type of the same signedness *)
Lemma in_type_64 t z : in_type t z -> in_type (k64 (is_signed t)) z.
Proof. destruct t; unfold in_type; cbn; lia. Qed.
Lemma via64_exact t q conv64 o : (forall o, exact_to_int (k64 (is_signed t)) q o (conv64 o)) -> integral q \/ ~ integral q ->
  exact_to_int t q o (via64 t conv64 o).
Proof.
  intros H D. destruct D as [(z & E)|N].
  - apply (exact_to_int_eq _ (inject_Z z)); [symmetry; exact E|]. apply exact_to_int_of_z.
    pose proof (from_big_exact t z o) as B. pose proof (bigint64_exact (is_signed t) z) as G.
    assert (X : forall o, fst (conv64 o) = fst (if is_signed t then bigint_to_int64 z o else bigint_to_uint64 z o) /\ snd (conv64 o) = snd (if is_signed t then bigint_to_int64 z o else bigint_to_uint64 z o) \/
                fst (conv64 o) <> None /\ snd (conv64 o) = o /\ ~ in_type (k64 (is_signed t)) z).
    { intros o'. destruct (H o') as [H1 H2]. destruct (G o') as [G1 G2].
      assert (Dt : in_type (k64 (is_signed t)) z \/ ~ in_type (k64 (is_signed t)) z).
      { rewrite <- in64. match goal with |- ?b = true \/ _ => generalize b end. intros [|]; [left; reflexivity|right; discriminate]. }
      destruct Dt as [Y|Y].
      - left. rewrite (H1 z E Y), (G1 Y). auto.
      - right. assert (Z0 : ~ (exists z0, (q == inject_Z z0)%Q /\ in_type (k64 (is_signed t)) z0)).
        { intros (z0 & E0 & T0). apply Y. rewrite E in E0. apply inject_Z_inj in E0. subst z0. exact T0. }
        destruct (H2 Z0). auto. }
    destruct (X o) as [[X1 X2]|(X1 & X2 & X3)].
    + destruct (X 0) as [[Y1 Y2]|(Y1 & Y2 & Y3)].
      * assert (E1 : conv64 o = if is_signed t then bigint_to_int64 z o else bigint_to_uint64 z o) by (rewrite (surjective_pairing (conv64 o)), X1, X2; symmetry; apply surjective_pairing).
        assert (E0 : conv64 0 = if is_signed t then bigint_to_int64 z 0 else bigint_to_uint64 z 0) by (rewrite (surjective_pairing (conv64 0)), Y1, Y2; symmetry; apply surjective_pairing).
        unfold via64. destruct t; cbn [is_signed] in E0, E1; rewrite ?E0, ?E1; exact B.
      * split; [intros T; exfalso; apply Y3, in_type_64, T|]. intros T. unfold via64.
        destruct (conv64 0) as [[e|] v]; [|cbn in Y1; congruence].
        destruct t; cbn [is_signed] in *; try (cbn; split; [discriminate|reflexivity]);
          rewrite (surjective_pairing (conv64 o)), X1, X2, <- surjective_pairing; apply (G o), Y3.
    + split; [intros T; exfalso; apply X3, in_type_64, T|]. intros T. unfold via64.
      destruct (X 0) as [[Y1 Y2]|(Y1 & Y2 & Y3)].
      * destruct (G 0) as [_ G2]. destruct (G2 X3) as [G3 _]. rewrite <- Y1 in G3. destruct (conv64 0) as [[e|] v]; [|cbn in G3; congruence].
        destruct t; try (cbn; split; [discriminate|reflexivity]); auto.
      * destruct (conv64 0) as [[e|] v]; [|cbn in Y1; congruence].
        destruct t; try (cbn; split; [discriminate|reflexivity]); auto.
  - assert (X : forall o, fst (conv64 o) <> None /\ snd (conv64 o) = o).
    { intros o'. destruct (H o') as [_ H2]. apply H2. intros (z & E & _). apply N. exists z. exact E. }
    apply exact_to_int_none; [exact N| |]; unfold via64.
    + destruct (X 0) as [Y1 Y2]. destruct (X o) as [Z1 Z2]. destruct (conv64 0) as [[e|] v]; [|cbn in Y1; congruence].
      destruct t; cbn; congruence.
    + destruct (X 0) as [Y1 Y2]. destruct (X o) as [Z1 Z2]. destruct (conv64 0) as [[e|] v]; [|cbn in Y1; congruence].
      destruct t; cbn; congruence.
Qed.
