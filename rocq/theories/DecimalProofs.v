(** Proofs about Decimal: normalisation, strings, comparison, alignment, sums. *)
From Verif Require Import Base GoInt Decimal DecimalSpec DecDigits.
Open Scope Z_scope.
Open Scope go_scope.

Lemma pos_p10 n : Z.pos (Z.to_pos (p10 n)) = p10 n.
Proof. apply Z2Pos.id. apply p10_pos. Qed.

Lemma value_eq d e : (value d == value e)%Q <-> dval d * p10 (dscale e) = dval e * p10 (dscale d).
Proof. unfold Qeq, value. cbn [Qnum Qden]. rewrite !pos_p10. reflexivity. Qed.
Lemma value_compare d e : (value d ?= value e)%Q = (dval d * p10 (dscale e) ?= dval e * p10 (dscale d)).
Proof. unfold Qcompare, value. cbn [Qnum Qden]. rewrite !pos_p10. reflexivity. Qed.

Lemma neg64_id z : - 2 ^ 63 < z < 2 ^ 63 -> neg64 z = - z.
Proof.
  intros. unfold neg64. apply wrapS_id; [lia|]. unfold inS, minS, maxS. change (64 - 1) with 63.
  change (2 ^ 63) with 9223372036854775808 in *. lia.
Qed.
Lemma neg64_min : neg64 (- 2 ^ 63) = - 2 ^ 63. Proof. reflexivity. Qed.
Lemma wrap64_id z : int64 z -> wrapS 64 z = z.
Proof.
  intros [A B]. apply wrapS_id; [lia|]. unfold inS, minS, maxS. change (64 - 1) with 63.
  change (2 ^ 63) with 9223372036854775808 in *. lia.
Qed.

Lemma valid_bound d : valid d -> - 1000000000000000000 < dval d < 1000000000000000000.
Proof. intros [A _]. rewrite p10_18 in A. lia. Qed.
Lemma valid_int64 d : valid d -> - 2 ^ 63 < dval d < 2 ^ 63.
Proof. intros V. pose proof (valid_bound d V). change (2 ^ 63) with 9223372036854775808. lia. Qed.
Lemma abs64_abs z : - 2 ^ 63 < z < 2 ^ 63 -> (if z <? 0 then neg64 z else z) = Z.abs z.
Proof. intros. destruct (Z.ltb_spec z 0); [rewrite neg64_id by lia|]; lia. Qed.
Lemma abs64_abs' z : - 2 ^ 63 < z < 2 ^ 63 -> (if 0 <=? z then z else neg64 z) = Z.abs z.
Proof. intros. destruct (Z.leb_spec 0 z); [|rewrite neg64_id by lia]; lia. Qed.

(** ** Normalisation *)
Lemma rem_mod10 v : Z.rem v 10 = 0 <-> v mod 10 = 0.
Proof.
  rewrite Z.rem_divide, Z.mod_divide by lia. reflexivity.
Qed.

Lemma norm_loop_spec s : forall v v' s', norm_loop s v = (v', s') ->
  v = v' * p10 (s - s') /\ (s' <= s)%nat /\ (s' = 0%nat \/ v' mod 10 <> 0).
Proof.
  induction s; intros v v' s' H; cbn [norm_loop] in H.
  - injection H as <- <-. cbn [Nat.sub]. rewrite p10_0. repeat split; auto. lia.
  - destruct (Z.eqb_spec (Z.rem v 10) 0) as [E|E].
    + apply IHs in H as [A [B C]]. repeat split; auto.
      replace (S s - s')%nat with (S (s - s')) by lia. rewrite p10_S.
      pose proof (Z.quot_rem v 10 ltac:(lia)). rewrite E in H. rewrite H at 1. rewrite A at 1. ring.
    + injection H as <- <-. rewrite Nat.sub_diag, p10_0. repeat split; [lia|auto|].
      right. rewrite <- rem_mod10. auto.
Qed.

Lemma norm_mag v v' k : v = v' * p10 k -> Z.abs v' <= Z.abs v.
Proof. intros ->. rewrite Z.abs_mul, (Z.abs_eq (p10 k)) by (pose proof (p10_pos k); lia). pose proof (p10_pos k). nia. Qed.

Lemma normalize_spec d : int64 (dval d) ->
  exists k, dval d = dval (normalize d) * p10 k /\ (dval d = 0 \/ dscale d = (dscale (normalize d) + k)%nat) /\
    (dval d = 0 -> dscale (normalize d) = 0%nat) /\
    canonical (normalize d) /\ denorm (normalize d) = denorm d.
Proof.
  intros R. unfold normalize. destruct (Z.eqb_spec (dval d) 0) as [E|E].
  - exists 0%nat. cbn [dval dscale denorm]. rewrite E. unfold canonical. cbn [dval dscale]. repeat split; auto.
  - destruct d as [v s dn]. cbn [dval dscale denorm] in *. destruct s as [|s].
    + exists 0%nat. unfold canonical. cbn [dval dscale denorm]. repeat split; auto. rewrite p10_0. lia.
    + destruct (norm_loop (S s) (if v <? 0 then neg64 v else v)) as [v' s'] eqn:N.
      apply norm_loop_spec in N as [A [B C]]. cbn [dval dscale denorm].
      exists (S s - s')%nat. unfold canonical. cbn [dval dscale].
      destruct (Z.ltb_spec v 0).
      * destruct (Z.eq_dec v (- 2 ^ 63)) as [EM|NM].
        { subst v. rewrite neg64_min in A.
          assert (S s - s' = 0)%nat as Z0.
          { destruct (S s - s')%nat; auto. rewrite p10_S in A. change (- 2 ^ 63) with (-9223372036854775808) in A. lia. }
          rewrite Z0, p10_0 in *. replace v' with (- 2 ^ 63) by lia. rewrite neg64_min.
          repeat split; auto; try lia. right. intro X. vm_compute in X. discriminate. }
        rewrite neg64_id in A by (destruct R; lia).
        assert (Z.abs v' <= Z.abs v). { rewrite <- (Z.abs_opp v). eapply norm_mag. exact A. }
        rewrite neg64_id by (destruct R; lia). repeat split; auto; try lia.
        destruct C as [C|C]; auto. right. intro X. apply C.
        apply Z.mod_divide in X; [|lia]. apply Z.mod_divide; [lia|]. apply Z.divide_opp_r in X. rewrite Z.opp_involutive in X. exact X.
      * repeat split; auto; try lia.
Qed.

Lemma normalize_value d : int64 (dval d) -> (value (normalize d) == value d)%Q.
Proof.
  intros R. destruct (normalize_spec d R) as [k [A [B [C _]]]]. apply value_eq.
  destruct B as [Z0|B].
  - rewrite Z0 in *. symmetry in A. apply Z.mul_eq_0 in A as [A|A]; [rewrite A; lia|]. pose proof (p10_pos k). lia.
  - rewrite A, B, p10_add. ring.
Qed.

Lemma normalize_mag d : int64 (dval d) -> Z.abs (dval (normalize d)) <= Z.abs (dval d) /\ (dscale (normalize d) <= dscale d)%nat.
Proof.
  intros R. destruct (normalize_spec d R) as [k [A [B [C _]]]]. split. { eapply norm_mag. exact A. }
  destruct B as [B|B]; [rewrite (C B)|]; lia.
Qed.

Lemma valid_int64' d : valid d -> int64 (dval d).
Proof. intros V. pose proof (valid_int64 d V). unfold int64. lia. Qed.

Lemma normalize_valid d : valid d -> valid (normalize d).
Proof. intros V. pose proof (normalize_mag d (valid_int64' d V)). destruct V. split; lia. Qed.

(** the canonical representation of a value is unique *)
Lemma canonical_unique v1 s1 v2 s2 : v1 * p10 s2 = v2 * p10 s1 ->
  (v1 = 0 -> s1 = 0%nat) -> (v2 = 0 -> s2 = 0%nat) ->
  (s1 = 0%nat \/ v1 mod 10 <> 0) -> (s2 = 0%nat \/ v2 mod 10 <> 0) -> v1 = v2 /\ s1 = s2.
Proof.
  assert (W : forall v1 s1 v2 s2, (s1 <= s2)%nat -> v1 * p10 s2 = v2 * p10 s1 ->
     (s2 = 0%nat \/ v2 mod 10 <> 0) -> v1 = v2 /\ s1 = s2).
  { clear. intros v1 s1 v2 s2 L E C. rewrite (p10_sub s2 s1 L) in E.
    assert (v1 * p10 (s2 - s1) = v2). { pose proof (p10_pos s1). nia. }
    destruct (s2 - s1)%nat as [|k] eqn:K. { rewrite p10_0 in H. split; lia. }
    destruct C as [C|C]; [lia|]. exfalso. apply C. rewrite <- H, p10_S.
    replace (v1 * (10 * p10 k)) with (v1 * p10 k * 10) by ring. apply Z.mod_mul. lia. }
  intros E Z1 Z2 C1 C2. destruct (Nat.le_ge_cases s1 s2) as [L|L]; [eauto|].
  destruct (W v2 s2 v1 s1 L (eq_sym E) C1). auto.
Qed.

Lemma normalize_canon_zero d : int64 (dval d) -> dval (normalize d) = 0 -> dscale (normalize d) = 0%nat.
Proof.
  intros R Z0. destruct (normalize_spec d R) as [k [A [B [C _]]]]. apply C. rewrite A, Z0. lia.
Qed.

Lemma normalize_unique d e : int64 (dval d) -> int64 (dval e) -> (value d == value e)%Q ->
  dval (normalize d) = dval (normalize e) /\ dscale (normalize d) = dscale (normalize e).
Proof.
  intros R1 R2 E. apply canonical_unique.
  - apply value_eq. rewrite !normalize_value; auto.
  - apply normalize_canon_zero; auto.
  - apply normalize_canon_zero; auto.
  - destruct (normalize_spec d R1) as [k [_ [_ [_ [A _]]]]]. exact A.
  - destruct (normalize_spec e R2) as [k [_ [_ [_ [A _]]]]]. exact A.
Qed.

Lemma normalize_min d v s : int64 (dval d) -> (value d == Qmake v (Z.to_pos (p10 s)))%Q -> (dscale (normalize d) <= s)%nat.
Proof.
  intros R E. rewrite <- normalize_value in E by auto. 
  assert (E' : (value (normalize d) == value (mkD v s false))%Q) by exact E. apply value_eq in E'. cbn [dval dscale] in E'.
  destruct (Nat.le_gt_cases (dscale (normalize d)) s) as [|L]; auto. exfalso.
  destruct (normalize_spec d R) as [k [_ [_ [_ [A _]]]]]. destruct A as [A|A]; [lia|]. apply A.
  rewrite (p10_sub (dscale (normalize d)) s) in E' by lia.
  assert (dval (normalize d) = v * p10 (dscale (normalize d) - s)). { pose proof (p10_pos s). nia. }
  destruct (dscale (normalize d) - s)%nat as [|j] eqn:J; [lia|]. rewrite H, p10_S.
  replace (v * (10 * p10 j)) with (v * p10 j * 10) by ring. apply Z.mod_mul. lia.
Qed.

Lemma normalize_idem d : int64 (dval d) -> normalize (normalize d) = normalize d.
Proof.
  intros R. assert (R' : int64 (dval (normalize d))).
  { destruct (normalize_spec d R) as [k [A _]].
    destruct k as [|k].
    - rewrite p10_0 in A. replace (dval (normalize d)) with (dval d) by lia. auto.
    - rewrite p10_S in A. unfold int64 in *. pose proof (p10_pos k).
      set (v := dval (normalize d)) in *. rewrite A in R.
      assert (Z.abs v * 10 <= 2 ^ 63). { nia. } lia. }
  destruct (normalize_unique (normalize d) d R' R (normalize_value d R)) as [A B].
  destruct (normalize_spec (normalize d) R') as [k [_ [_ [_ [_ C]]]]].
  destruct (normalize (normalize d)), (normalize d). cbn in *. subst. reflexivity.
Qed.

Lemma apply_norm_value d : int64 (dval d) -> (value (apply_norm d) == value d)%Q.
Proof. intros. unfold apply_norm. destruct (_ || _); [apply normalize_value; auto|reflexivity]. Qed.
Lemma apply_norm_valid d : valid d -> valid (apply_norm d).
Proof. intros. unfold apply_norm. destruct (_ || _); [apply normalize_valid; auto|auto]. Qed.
Lemma apply_norm_denorm d : int64 (dval d) -> denorm (apply_norm d) = denorm d.
Proof.
  intros R. unfold apply_norm. destruct (_ || _); auto. destruct (normalize_spec d R) as [k [_ [_ [_ [_ C]]]]]. exact C.
Qed.
Lemma apply_norm_canonical d : int64 (dval d) -> denorm d = false -> canonical (apply_norm d).
Proof.
  intros R N. unfold apply_norm. rewrite N. cbn [negb]. rewrite orb_true_r.
  destruct (normalize_spec d R) as [k [_ [_ [_ [C _]]]]]. exact C.
Qed.
Lemma apply_norm_keep d : denorm d = true -> dval d <> 0 -> apply_norm d = d.
Proof. intros N Z0. unfold apply_norm. rewrite N. destruct (Z.eqb_spec (dval d) 0); [contradiction|]. reflexivity. Qed.
