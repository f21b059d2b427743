From Coq Require Import ZifyBool.
From Verif Require Import Base GoInt Conv ConvSpec.
Open Scope Z_scope.

Ltac pows := change (2 ^ (8 - 1)) with 128 in *; change (2 ^ 8) with 256 in *;
  change (2 ^ (16 - 1)) with 32768 in *; change (2 ^ 16) with 65536 in *;
  change (2 ^ (32 - 1)) with 2147483648 in *; change (2 ^ 32) with 4294967296 in *;
  change (2 ^ (64 - 1)) with 9223372036854775808 in *; change (2 ^ 64) with 18446744073709551616 in *.

Ltac crush_conv :=
  unfold exact_conversion, in_type, to_int, int_to_int, uint_to_int, int_to_uint, uint_to_uint, bigint_to_int64,
    bigint_to_uint64, cast, min_int_value, max_int_value, max_uint_value, wrapS, wrapU, minS, maxS, maxU in *;
  cbn [num_bits is_signed ikind_eqb table fst snd] in *; pows;
  repeat match goal with
  | |- context [if ?b then _ else _] => destruct b eqn:?
  end; cbn [fst snd] in *; split; intros; try split; try discriminate; try reflexivity;
  try (exfalso; Z.div_mod_to_equations; lia);
  try (f_equal; Z.div_mod_to_equations; lia).

Lemma to_int_exact s t ival oval : in_type s ival ->
  exists r, to_int s t ival oval = Done r /\ exact_conversion t ival oval r.
Proof.
  intros Hs. destruct s, t; (eexists; split; [cbv [to_int ikind_eqb table]; reflexivity|]); crush_conv.
Qed.

Lemma from_big_exact t ival oval : exact_conversion t ival oval (to_int_from_big t ival oval).
Proof.
  unfold to_int_from_big.
  destruct t; unfold bigint_to_int64, bigint_to_uint64;
  repeat match goal with
  | |- context [if ?b then _ else _] => destruct b eqn:?
  end; crush_conv.
Qed.

(** Round trip: a conversion that succeeds is undone by the conversion back. *)
Lemma to_int_round_trip s t ival o1 o2 v : in_type s ival ->
  to_int s t ival o1 = Done (None, v) -> to_int t s v o2 = Done (None, ival).
Proof.
  intros Hs E. destruct (to_int_exact s t ival o1 Hs) as (r & E' & X1 & X2). rewrite E in E'. inversion E'; subst r.
  assert (in_type t ival).
  { destruct (is_signed t) eqn:St; unfold in_type in *; rewrite St in *.
    - destruct (Z_le_gt_dec (- 2 ^ (num_bits t - 1)) ival), (Z_le_gt_dec ival (2 ^ (num_bits t - 1) - 1)); try lia;
      (destruct X2 as [X2 _]; [lia|]; simpl in X2; congruence).
    - destruct (Z_le_gt_dec 0 ival), (Z_le_gt_dec ival (2 ^ (num_bits t) - 1)); try lia;
      (destruct X2 as [X2 _]; [lia|]; simpl in X2; congruence). }
  specialize (X1 H). inversion X1; subst v.
  destruct (to_int_exact t s ival o2 H) as (r & E2 & Y1 & _). rewrite E2. f_equal. auto.
Qed.
