(** Facts about decimal digits. *)
From Verif Require Import Base GoInt Decimal DecimalSpec.
Open Scope Z_scope.

Lemma p10_0 : p10 0 = 1. Proof. reflexivity. Qed.
Lemma p10_S n : p10 (S n) = 10 * p10 n.
Proof. unfold p10. rewrite Nat2Z.inj_succ, Z.pow_succ_r by lia. reflexivity. Qed.
Lemma p10_add a b : p10 (a + b) = p10 a * p10 b.
Proof. unfold p10. rewrite Nat2Z.inj_add, Z.pow_add_r by lia. reflexivity. Qed.
Lemma p10_pos n : 0 < p10 n.
Proof. unfold p10. apply Z.pow_pos_nonneg; lia. Qed.
Lemma p10_mono a b : (a <= b)%nat -> p10 a <= p10 b.
Proof. intros. unfold p10. apply Z.pow_le_mono_r; lia. Qed.
Lemma p10_lt a b : (a < b)%nat -> p10 a < p10 b.
Proof. intros. unfold p10. apply Z.pow_lt_mono_r; lia. Qed.
Lemma p10_lt_inv a b : p10 a < p10 b -> (a < b)%nat.
Proof. intros. destruct (Nat.lt_ge_cases a b); auto. pose proof (p10_mono b a H0). lia. Qed.
Lemma p10_18 : p10 18 = 1000000000000000000. Proof. reflexivity. Qed.
Lemma p10_sub a b : (b <= a)%nat -> p10 a = p10 (a - b) * p10 b.
Proof. intros. rewrite <- p10_add. f_equal. lia. Qed.

Definition digits_ok (l : list Z) : Prop := Forall (fun d => 0 <= d <= 9) l.

Lemma undec_gen l : forall a, fold_left (fun a d => 10 * a + d) l a = a * p10 (length l) + undec l.
Proof.
  unfold undec. induction l; intros; cbn [fold_left length]. { rewrite p10_0. lia. }
  rewrite IHl, (IHl (10 * 0 + a)), p10_S. ring.
Qed.
Lemma undec_cons d l : undec (d :: l) = d * p10 (length l) + undec l.
Proof. unfold undec at 1. cbn [fold_left]. rewrite undec_gen. reflexivity. Qed.
Lemma undec_app a b : undec (a ++ b) = undec a * p10 (length b) + undec b.
Proof. unfold undec at 1. rewrite fold_left_app. apply undec_gen. Qed.
Lemma undec_zeros n : undec (repeat 0 n) = 0.
Proof. induction n; [reflexivity|]. cbn [repeat]. rewrite undec_cons. lia. Qed.
Lemma undec_bounds l : digits_ok l -> 0 <= undec l < p10 (length l).
Proof.
  induction 1. { unfold undec. cbn. lia. }
  rewrite undec_cons. cbn [length]. rewrite p10_S. nia.
Qed.

Lemma dec_loop_spec fuel : forall n acc, 0 <= n < p10 fuel -> digits_ok acc ->
  undec (dec_loop fuel n acc) = n * p10 (length acc) + undec acc /\ digits_ok (dec_loop fuel n acc).
Proof.
  induction fuel; intros n acc Hn Hacc; cbn [dec_loop].
  - rewrite p10_0 in Hn. replace n with 0 by lia. split; [lia|auto].
  - destruct (Z.ltb_spec n 10).
    + rewrite undec_cons. split; auto. constructor; auto. lia.
    + rewrite p10_S in Hn. pose proof (Z.div_mod n 10 ltac:(lia)). pose proof (Z.mod_pos_bound n 10 ltac:(lia)).
      destruct (IHfuel (n / 10) (n mod 10 :: acc)) as [A B].
      * split. { apply Z.div_pos; lia. } apply Z.div_lt_upper_bound; lia.
      * constructor; auto. lia.
      * split; auto. rewrite A, undec_cons. cbn [length]. rewrite p10_S. nia.
Qed.
Lemma dec_loop_len fuel : forall n acc, 0 < n < p10 fuel ->
  exists k, length (dec_loop fuel n acc) = (S k + length acc)%nat /\ p10 k <= n < p10 (S k).
Proof.
  induction fuel; intros n acc Hn; cbn [dec_loop].
  - rewrite p10_0 in Hn. lia.
  - destruct (Z.ltb_spec n 10).
    + exists 0%nat. cbn [length]. split; [lia|]. rewrite p10_S, p10_0. lia.
    + rewrite p10_S in Hn. pose proof (Z.div_mod n 10 ltac:(lia)). pose proof (Z.mod_pos_bound n 10 ltac:(lia)).
      destruct (IHfuel (n / 10) (n mod 10 :: acc)) as [k [A B]].
      * split. { apply Z.div_str_pos. lia. } apply Z.div_lt_upper_bound; lia.
      * exists (S k). cbn [length] in *. split; [lia|]. rewrite p10_S in *. rewrite (p10_S (S k)), p10_S. nia.
Qed.
Lemma dec_fuel n : 0 <= n -> n < p10 (S (Z.to_nat (Z.log2 n))).
Proof.
  intros H. unfold p10. rewrite Nat2Z.inj_succ, Z2Nat.id by apply Z.log2_nonneg.
  destruct (Z.eq_dec n 0). { subst. reflexivity. }
  eapply Z.lt_le_trans. { apply Z.log2_spec. lia. }
  apply Z.pow_le_mono_l. lia.
Qed.
Lemma undec_dec n : 0 <= n -> undec (dec n) = n.
Proof.
  intros. unfold dec. destruct (dec_loop_spec (S (Z.to_nat (Z.log2 n))) n []) as [A _].
  { split; auto. apply dec_fuel; auto. } { constructor. }
  rewrite A. cbn [length]. rewrite p10_0. unfold undec. cbn. lia.
Qed.
Lemma dec_ok n : 0 <= n -> digits_ok (dec n).
Proof.
  intros. unfold dec. destruct (dec_loop_spec (S (Z.to_nat (Z.log2 n))) n []) as [_ A]; auto.
  { split; auto. apply dec_fuel; auto. } { constructor. }
Qed.
Lemma dec_0 : dec 0 = [0]. Proof. reflexivity. Qed.
Lemma dec_len n : 0 < n -> exists k, length (dec n) = S k /\ p10 k <= n < p10 (S k).
Proof.
  intros. unfold dec. destruct (dec_loop_len (S (Z.to_nat (Z.log2 n))) n []) as [k [A B]].
  { split; auto. apply dec_fuel; lia. }
  exists k. split; auto. rewrite A. cbn [length]. lia.
Qed.
Lemma dec_len_pos n : 0 <= n -> (1 <= length (dec n))%nat.
Proof.
  intros. destruct (Z.eq_dec n 0). { subst. cbn. lia. }
  destruct (dec_len n ltac:(lia)) as [k [A _]]. lia.
Qed.
(** the number of digits of n (0 has one digit), as a bound on max(1,n) *)
Lemma dec_len_le n k : 0 <= n -> ((length (dec n) <= k)%nat <-> Z.max 1 n < p10 k).
Proof.
  intros. destruct (Z.eq_dec n 0).
  - subst. rewrite dec_0. cbn [length]. replace (Z.max 1 0) with (p10 0) by reflexivity. split; intros.
    + apply p10_lt. lia.
    + apply p10_lt_inv in H0. lia.
  - destruct (dec_len n ltac:(lia)) as [j [A B]]. rewrite A, Z.max_r by lia. split; intros.
    + pose proof (p10_mono (S j) k H0). lia.
    + assert (p10 j < p10 k) by lia. apply p10_lt_inv in H1. lia.
Qed.
Lemma dec_lt_len n : 0 <= n -> n < p10 (length (dec n)).
Proof. intros. pose proof (proj1 (dec_len_le n (length (dec n)) H) ltac:(lia)). lia. Qed.

(** ** Characters *)
Definition unchr (c : Z) : Z := c - 48.
Lemma unchr_chr l : map (fun c => c - 48) (map chr l) = l.
Proof. rewrite map_map. rewrite <- (map_id l) at 2. apply map_ext. intros. unfold chr. lia. Qed.
Lemma is_digit_chr d : 0 <= d <= 9 -> is_digit (chr d) = true.
Proof. intros. unfold is_digit, chr. apply andb_true_intro. split; apply Z.leb_le; lia. Qed.

Lemma parse_digits_dec l : digits_ok l -> undec l < 2 ^ 63 -> parse_digits (map chr l) = undec l.
Proof.
  intros H H0. unfold parse_digits. rewrite unchr_chr. cbv zeta. destruct (Z.leb_spec (undec l) 9223372036854775807); auto.
  change (2 ^ 63) with 9223372036854775808 in H0. lia.
Qed.

Lemma lex_cmp_chr a : forall b, lex_cmp (map chr a) (map chr b) = lex_cmp a b.
Proof.
  induction a; destruct b; cbn [map lex_cmp]; auto. rewrite IHa.
  assert (E : forall x y, (chr x <? chr y) = (x <? y)).
  { intros. unfold chr. destruct (Z.ltb_spec (x + 48) (y + 48)), (Z.ltb_spec x y); auto; lia. }
  rewrite !E. reflexivity.
Qed.
Lemma lex_cmp_digits a : forall b, length a = length b -> digits_ok a -> digits_ok b ->
  lex_cmp a b = Z.sgn (undec a - undec b).
Proof.
  induction a; destruct b; cbn [length]; intros L A B; try discriminate; auto.
  inversion A as [|? ? A1 A2]; inversion B as [|? ? B1 B2]; subst. rewrite !undec_cons.
  cbn [lex_cmp]. pose proof (undec_bounds a0 A2). pose proof (undec_bounds b B2) as BB.
  assert (LL : length b = length a0) by lia. rewrite LL in BB |- *.
  destruct (Z.ltb_spec a z). { symmetry. apply Z.sgn_neg. assert (0 <= (z - a - 1) * p10 (length a0)) by (apply Z.mul_nonneg_nonneg; lia). lia. }
  destruct (Z.ltb_spec z a). { symmetry. apply Z.sgn_pos. assert (0 <= (a - z - 1) * p10 (length a0)) by (apply Z.mul_nonneg_nonneg; lia). lia. }
  replace z with a by lia. rewrite IHa by (auto; lia). f_equal. ring.
Qed.
Lemma lex_cmp_app a : forall b c d, length a = length b ->
  lex_cmp (a ++ c) (b ++ d) = if lex_cmp a b =? 0 then lex_cmp c d else lex_cmp a b.
Proof.
  induction a; destruct b; cbn [length app]; intros c d L; try discriminate; auto.
  cbn [lex_cmp]. destruct (a <? z); auto. destruct (z <? a); auto.
Qed.
