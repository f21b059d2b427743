(** Go fixed-width integers as Z with explicit wrap-around. [w] is the width in bits (8, 16, 32, 64). *)
From Coq Require Export ZArith Lia.
Open Scope Z_scope.

Definition wrapU (w z : Z) : Z := z mod 2 ^ w.
Definition wrapS (w z : Z) : Z := (z + 2 ^ (w - 1)) mod 2 ^ w - 2 ^ (w - 1).

Definition minS (w : Z) : Z := - 2 ^ (w - 1).
Definition maxS (w : Z) : Z := 2 ^ (w - 1) - 1.
Definition maxU (w : Z) : Z := 2 ^ w - 1.

Definition inS (w z : Z) : Prop := minS w <= z <= maxS w.
Definition inU (w z : Z) : Prop := 0 <= z <= maxU w.

Lemma pow_half w : 1 <= w -> 2 ^ w = 2 * 2 ^ (w - 1).
Proof. intros. replace w with (Z.succ (w - 1)) at 1 by lia. rewrite Z.pow_succ_r by lia. reflexivity. Qed.

Lemma pow_pos w : 0 <= w -> 0 < 2 ^ w.
Proof. intros. apply Z.pow_pos_nonneg; lia. Qed.

Lemma wrapS_in w z : 1 <= w -> inS w (wrapS w z).
Proof.
  intros. unfold inS, minS, maxS, wrapS. pose proof (pow_half w H). pose proof (pow_pos (w - 1) ltac:(lia)).
  pose proof (Z.mod_pos_bound (z + 2 ^ (w - 1)) (2 ^ w) ltac:(lia)). lia.
Qed.

Lemma wrapU_in w z : 0 <= w -> inU w (wrapU w z).
Proof.
  intros. unfold inU, maxU, wrapU. pose proof (pow_pos w H).
  pose proof (Z.mod_pos_bound z (2 ^ w) ltac:(lia)). lia.
Qed.

Lemma wrapS_id w z : 1 <= w -> inS w z -> wrapS w z = z.
Proof.
  unfold inS, minS, maxS, wrapS. intros. pose proof (pow_half w H). rewrite Z.mod_small; lia.
Qed.

Lemma wrapU_id w z : inU w z -> wrapU w z = z.
Proof. unfold inU, maxU, wrapU. intros. rewrite Z.mod_small; lia. Qed.

Lemma wrapS_shift w z k : 1 <= w -> wrapS w (z + k * 2 ^ w) = wrapS w z.
Proof.
  intros. unfold wrapS. f_equal. replace (z + k * 2 ^ w + 2 ^ (w - 1)) with (z + 2 ^ (w - 1) + k * 2 ^ w) by ring.
  apply Z.mod_add. pose proof (pow_pos w ltac:(lia)). lia.
Qed.

Lemma wrapU_shift w z k : 0 <= w -> wrapU w (z + k * 2 ^ w) = wrapU w z.
Proof. intros. unfold wrapU. apply Z.mod_add. pose proof (pow_pos w ltac:(lia)). lia. Qed.

(** wrapping is congruent to the original value *)
Lemma wrapS_cong w z : 1 <= w -> exists k, wrapS w z = z + k * 2 ^ w.
Proof.
  intros. unfold wrapS. exists (- ((z + 2 ^ (w - 1)) / 2 ^ w)).
  pose proof (pow_pos w ltac:(lia)). rewrite Z.mod_eq by lia. ring.
Qed.

Lemma wrapU_cong w z : 0 <= w -> exists k, wrapU w z = z + k * 2 ^ w.
Proof.
  intros. unfold wrapU. exists (- (z / 2 ^ w)). pose proof (pow_pos w ltac:(lia)). rewrite Z.mod_eq by lia. ring.
Qed.

Lemma wrapS_add_l w a b : 1 <= w -> wrapS w (wrapS w a + b) = wrapS w (a + b).
Proof.
  intros. destruct (wrapS_cong w a H) as [k ->]. rewrite <- (wrapS_shift w (a + b) k H). f_equal. ring.
Qed.

Lemma wrapS_add_r w a b : 1 <= w -> wrapS w (a + wrapS w b) = wrapS w (a + b).
Proof. intros. rewrite Z.add_comm, wrapS_add_l, Z.add_comm; auto. Qed.

(** a wrapped value that came out of range differs by exactly one period, for sums/differences of two in-range values *)
Lemma wrapS_over w z : 1 <= w -> maxS w < z <= maxS w + 2 ^ w -> wrapS w z = z - 2 ^ w.
Proof.
  intros H R. rewrite <- (wrapS_shift w z (-1)) by auto. rewrite wrapS_id; auto; try lia.
  unfold inS, minS, maxS in *. pose proof (pow_half w H). lia.
Qed.

Lemma wrapS_under w z : 1 <= w -> minS w - 2 ^ w <= z < minS w -> wrapS w z = z + 2 ^ w.
Proof.
  intros H R. rewrite <- (wrapS_shift w z 1) by auto. rewrite wrapS_id; auto; try lia.
  unfold inS, minS, maxS in *. pose proof (pow_half w H). lia.
Qed.
