(** Property C105: the laws of decimal arithmetic, and where they fail. *)
From Coq Require Import Qabs.
From Verif Require Import Base GoInt Decimal DecimalSpec DecDigits DecimalProofs DecimalProofs2 DecimalProofs3 DecimalProofs4 DecimalProofs5 DecimalProofs6 DecimalLaws PropsDecimal.
Open Scope Z_scope.
Open Scope go_scope.

(** What adjusting gives, in every case. *)
Inductive adjusted (d o : decimal) : outcome (option err * decimal * decimal) -> outcome (option err * decimal * decimal) -> Prop :=
| adj_ok a b s : Z.abs a <= p10 18 - 1 -> Z.abs b <= p10 18 - 1 -> (s <= 18)%nat ->
    adjusted d o (Done (None, mkD a s (denorm d), mkD b s (denorm o))) (Done (None, mkD b s (denorm o), mkD a s (denorm d)))
| adj_err e : adjusted d o (Done (Some e, d, o)) (Done (Some e, o, d))
| adj_panic : adjusted d o Panicked Panicked.
Lemma adjusted_swap d o x y : adjusted d o x y -> adjusted o d y x.
Proof. intros [a b s A B S'|e|]; constructor; auto. Qed.
Lemma fits_dec d s : {fits_scale d s} + {~ fits_scale d s}.
Proof. unfold fits_scale. apply Z_le_dec. Qed.
Lemma adjust_cases_lt d o : valid d -> valid o -> (dscale o < dscale d)%nat -> adjusted d o (adjust_scale d o) (adjust_scale o d).
Proof.
  intros V W L. destruct (fits_dec o (dscale d)) as [F|F].
  - destruct (adjust_alignable d o V W) as (A & B & C); [right; right; auto|].
    destruct (adjust_alignable o d W V) as (A' & B' & C'); [right; left; auto|]. cbn zeta in *.
    rewrite (Nat.max_comm (dscale o)) in *. rewrite A, A'. constructor; auto. destruct V, W. lia.
  - pose proof (C37_round d o V W L F) as [A B]. cbn zeta in A, B. rewrite A, B. clear A B.
    destruct (999999999999999994 <? Z.abs (dval o)); [constructor|]. destruct (_ <=? _); [|constructor].
    destruct V as [V1 V2], W as [W1 W2]. destruct d as [dv ds dn], o as [ov os on]. cbn [dval dscale denorm] in *.
    apply (adj_ok (mkD dv ds dn) (mkD ov os on)); auto. etransitivity; [apply round_half_mag; auto|rewrite p10_18; lia].
    assert (H : p10 1 <= p10 (ds - os)) by (apply p10_mono; lia). rewrite p10_S, p10_0 in H. lia.
Qed.
Lemma adjust_cases d o : valid d -> valid o -> adjusted d o (adjust_scale d o) (adjust_scale o d).
Proof.
  intros V W. destruct (Nat.lt_trichotomy (dscale d) (dscale o)) as [L|[E|L]].
  - apply adjusted_swap, adjust_cases_lt; auto.
  - unfold adjust_scale. rewrite E, Nat.eqb_refl. destruct d as [dv ds dn], o as [ov os on], V, W. cbn [dscale dval] in *. subst ds. constructor; auto.
  - apply adjust_cases_lt; auto.
Qed.

Definition signed_sum (v : Z) (s : nat) (dn : bool) : outcome (option err * decimal) :=
  if Z.abs v <=? p10 18 - 1 then Done (None, apply_norm (mkD v s dn))
  else Done (Some (if 0 <? v then ErrDecOverflow else ErrDecUnderflow), mkD 0 0 false).
Inductive added (d o : decimal) : outcome (option err * decimal) -> outcome (option err * decimal) -> Prop :=
| added_ok v s : (s <= 18)%nat -> added d o (signed_sum v s (denorm d)) (signed_sum v s (denorm o))
| added_err e : added d o (Done (Some e, mkD 0 0 false)) (Done (Some e, mkD 0 0 false))
| added_panic : added d o Panicked Panicked.
Lemma add_cases d o : valid d -> valid o -> added d o (dec_add d o) (dec_add o d).
Proof.
  intros V W. pose proof (adjust_cases d o V W) as A. remember (adjust_scale d o) as x eqn:X. remember (adjust_scale o d) as y eqn:Y. symmetry in X, Y.
  destruct A as [a b s A B L|e|].
  - unfold dec_add. rewrite (add_aligned _ _ _ _ X A B), (add_aligned _ _ _ _ Y B A). cbn [dval dscale denorm]. rewrite (Z.add_comm b a). apply (added_ok d o (a + b) s L).
  - unfold dec_add, add_decimal. rewrite X, Y. cbn [obind]. constructor.
  - unfold dec_add, add_decimal. rewrite X, Y. constructor.
Qed.
Lemma signed_same v s dn dn' : (s <= 18)%nat -> same_result (signed_sum v s dn) (signed_sum v s dn').
Proof.
  intros L. unfold signed_sum. destruct (Z.leb_spec (Z.abs v) (p10 18 - 1)); [|reflexivity]. cbn [same_result].
  rewrite (proj1 (norm_result v s dn H L)), (proj1 (norm_result v s dn' H L)). reflexivity.
Qed.

(** C105. Add is commutative: the same number, the same error or a panic both times; the very same decimal if both operands are
    normalised, or both are not. *)
Theorem C105_add_commutes d o : valid d -> valid o ->
  same_result (dec_add d o) (dec_add o d) /\ (denorm d = denorm o -> dec_add d o = dec_add o d).
Proof.
  intros V W. destruct (add_cases d o V W) as [v s L|e|].
  - split; [apply signed_same; exact L|intros ->; reflexivity].
  - split; reflexivity.
  - split; [exact Logic.I|reflexivity].
Qed.

Lemma negate_valid d : valid d -> valid (negate d).
Proof. intros V. rewrite negate_spec by exact V. destruct V. split; cbn [dval dscale]; [rewrite Z.abs_opp|]; auto. Qed.
Lemma negate_twice d : valid d -> negate (negate d) = d.
Proof. intros V. rewrite (negate_spec (negate d)) by (apply negate_valid; exact V). rewrite negate_spec by exact V. destruct d. cbn. rewrite Z.opp_involutive. reflexivity. Qed.
Lemma round_half_opp z m : round_half_away (- z) m = - round_half_away z m.
Proof. unfold round_half_away. rewrite Z.abs_opp, Z.sgn_opp. lia. Qed.
Lemma alignable_dec d o : alignable d o \/ (dscale d < dscale o)%nat /\ ~ fits_scale d (dscale o) \/ (dscale o < dscale d)%nat /\ ~ fits_scale o (dscale d).
Proof. unfold alignable. destruct (Nat.lt_trichotomy (dscale d) (dscale o)) as [L|[L|L]], (fits_dec d (dscale o)), (fits_dec o (dscale d)); tauto. Qed.
Lemma add_rounding d o : valid d -> valid o -> (dscale o < dscale d)%nat -> ~ fits_scale o (dscale d) ->
  dec_add d o = if 999999999999999994 <? Z.abs (dval o) then Done (Some (if 0 <? dval o then ErrTooLargeToRound else ErrTooSmallToRound), mkD 0 0 false)
    else if p10 (dscale d - dscale o - 1) <=? Z.max 1 (Z.abs (dval d)) then signed_sum (round_half_away (dval d) (p10 (dscale d - dscale o)) + dval o) (dscale o) (denorm d)
    else Panicked.
Proof.
  intros V W L F. pose proof (C37_round d o V W L F) as [A _]. cbn zeta in A. revert A. destruct (999999999999999994 <? Z.abs (dval o)); [|destruct (_ <=? _)]; intros A.
  - unfold dec_add, add_decimal. rewrite A. reflexivity.
  - unfold dec_add. rewrite (add_aligned _ _ _ _ A); [reflexivity| |apply W]. cbn [dval].
    etransitivity; [apply round_half_mag; [|apply V]|rewrite p10_18; lia].
    assert (H : p10 1 <= p10 (dscale d - dscale o)) by (apply p10_mono; lia). rewrite p10_S, p10_0 in H. lia.
  - unfold dec_add, add_decimal. rewrite A. reflexivity.
Qed.
Lemma add_aligning d o : valid d -> valid o -> alignable d o -> let S := Nat.max (dscale d) (dscale o) in
  dec_add d o = signed_sum (dval d * p10 (S - dscale d) + dval o * p10 (S - dscale o)) S (denorm d).
Proof. intros V W A S'. destruct (adjust_alignable d o V W A) as (B & C & D). unfold dec_add. rewrite (add_aligned _ _ _ _ B C D). reflexivity. Qed.
Lemma signed_opp v s dn dn' : (s <= 18)%nat -> opposite_result (signed_sum (- v) s dn) (signed_sum v s dn').
Proof.
  intros L. unfold signed_sum. rewrite Z.abs_opp. destruct (Z.leb_spec (Z.abs v) (p10 18 - 1)).
  - cbn [opposite_result]. assert (H' : Z.abs (- v) <= p10 18 - 1) by (rewrite Z.abs_opp; exact H).
    rewrite (proj1 (norm_result (- v) s dn H' L)), (proj1 (norm_result v s dn' H L)). reflexivity.
  - cbn [opposite_result]. rewrite p10_18 in H. destruct (Z.ltb_spec 0 (- v)), (Z.ltb_spec 0 v); try reflexivity; lia.
Qed.
Lemma same_opposite x y z : same_result x y -> opposite_result y z -> opposite_result x z.
Proof.
  destruct x as [[[e|] a]| |], y as [[[e'|] b]| |], z as [[[e2|] c]| |]; cbn [same_result opposite_result]; try tauto.
  - intros -> H. exact H.
  - intros -> H. exact H.
Qed.
Lemma opposite_same x y z : opposite_result x y -> same_result y z -> opposite_result x z.
Proof.
  destruct x as [[[e|] a]| |], y as [[[e'|] b]| |], z as [[[e2|] c]| |]; cbn [same_result opposite_result]; try tauto.
  - intros H <-. exact H.
  - intros H <-. exact H.
Qed.
Lemma add_negate_lt d o : valid d -> valid o -> (dscale o < dscale d)%nat -> ~ fits_scale o (dscale d) -> opposite_result (dec_add (negate d) (negate o)) (dec_add d o).
Proof.
  intros V W L F. rewrite (add_rounding d o V W L F). rewrite add_rounding; [|apply negate_valid; exact V|apply negate_valid; exact W| |];
    rewrite ?(negate_spec d V), ?(negate_spec o W); cbn [dval dscale denorm]; [|exact L|unfold fits_scale in *; cbn [dval dscale]; rewrite Z.abs_opp; exact F].
  rewrite !Z.abs_opp. destruct (999999999999999994 <? Z.abs (dval o)) eqn:T.
  - cbn [opposite_result]. apply Z.ltb_lt in T. destruct (Z.ltb_spec 0 (- dval o)), (Z.ltb_spec 0 (dval o)); try reflexivity; lia.
  - destruct (_ <=? _); [|exact Logic.I]. rewrite round_half_opp, <- Z.opp_add_distr. apply signed_opp. apply W.
Qed.
Lemma add_negate d o : valid d -> valid o -> opposite_result (dec_add (negate d) (negate o)) (dec_add d o).
Proof.
  intros V W. destruct (alignable_dec d o) as [A|[[L F]|[L F]]].
  - rewrite (add_aligning d o V W A). rewrite add_aligning; [|apply negate_valid; exact V|apply negate_valid; exact W|];
      rewrite ?(negate_spec d V), ?(negate_spec o W); cbn [dval dscale denorm].
    + rewrite !Z.mul_opp_l, <- Z.opp_add_distr. apply signed_opp. destruct V, W. lia.
    + unfold alignable, fits_scale in *. cbn [dval dscale]. rewrite !Z.abs_opp. exact A.
  - eapply same_opposite; [apply C105_add_commutes; apply negate_valid; assumption|]. eapply opposite_same; [apply add_negate_lt; assumption|].
    apply C105_add_commutes; assumption.
  - apply add_negate_lt; assumption.
Qed.
(** C105. d - o and o - d are opposite: opposite numbers, errors of opposite sign, or a panic both times.  d - d is 0. *)
Theorem C105_sub_opposite d o : valid d -> valid o -> opposite_result (dec_sub d o) (dec_sub o d).
Proof.
  intros V W. unfold dec_sub. assert (V' := negate_valid d V). assert (W' := negate_valid o W).
  eapply opposite_same; [|apply (C105_add_commutes (negate d) o); assumption].
  pose proof (add_negate (negate d) o V' W) as H. rewrite (negate_twice d V) in H. exact H.
Qed.
Theorem C105_sub_self d : valid d -> dec_sub d d = Done (None, mkD 0 0 (denorm d)).
Proof.
  intros V. unfold dec_sub. fold (dec_add d (negate d)). rewrite add_aligning; [|exact V|apply negate_valid; exact V|left; rewrite negate_spec by exact V; reflexivity].
  rewrite (negate_spec d V). cbn [dval dscale denorm]. rewrite Nat.max_id, Nat.sub_diag, p10_0. replace (dval d * 1 + - dval d * 1) with 0 by lia. reflexivity.
Qed.

Inductive mulled (d o : decimal) : option err * decimal -> option err * decimal -> Prop :=
| mulled_ok v s : Z.abs v <= p10 18 - 1 -> (s <= 18)%nat -> mulled d o (None, apply_norm (mkD v s (denorm d))) (None, apply_norm (mkD v s (denorm o)))
| mulled_err e : mulled d o (Some e, mkD 0 0 false) (Some e, mkD 0 0 false).
Lemma sg_comm d o : sg d o = sg o d.
Proof. unfold sg. destruct (0 <=? dval d), (0 <=? dval o); reflexivity. Qed.
Lemma mul_err_comm d o : mul_err d o = mul_err o d.
Proof. unfold mul_err. rewrite Z.eqb_sym. reflexivity. Qed.
Lemma finish_cases d o rval rscale b b' : 0 <= rval < 2 ^ 63 -> (maxValue < rval -> b = true /\ b' = true) ->
  mulled d o (mul_finish d o rval rscale b) (mul_finish o d rval rscale b').
Proof.
  intros R B. unfold mul_finish. cbv zeta.
  assert (M : (b && (maxValue <? rval))%bool = (maxValue <? rval) /\ (b' && (maxValue <? rval))%bool = (maxValue <? rval)).
  { destruct (Z.ltb_spec maxValue rval) as [Q|Q]; [destruct (B Q) as [-> ->]; split; reflexivity|]. rewrite !andb_false_r. split; reflexivity. }
  destruct M as [-> ->]. rewrite (mul_err_comm o d).
  assert (G : forall r, 0 <= r <= maxValue -> mulled d o
     (None, apply_norm (mkD (if Bool.eqb (0 <=? dval d) (0 <=? dval o) then round_scale (rscale - 18) r else neg64 (round_scale (rscale - 18) r)) (Nat.min rscale 18) (denorm d)))
     (None, apply_norm (mkD (if Bool.eqb (0 <=? dval o) (0 <=? dval d) then round_scale (rscale - 18) r else neg64 (round_scale (rscale - 18) r)) (Nat.min rscale 18) (denorm o)))).
  { intros r Rr. unfold maxValue in Rr. destruct (round_scale_bound (rscale - 18) r) as [G _]; [lia|].
    rewrite !sg_apply by lia. rewrite (sg_comm o d). constructor; [rewrite sg_mag, p10_18; lia|lia]. }
  destruct (Z.ltb_spec maxValue rval) as [Q|Q]; [|apply G; lia].
  destruct (rscale =? 0)%nat; [constructor|]. assert (Qd : 0 <= Z.quot rval 10 <= 922337203685477580).
  { rewrite Z.quot_div_nonneg by lia. split; [apply Z.div_pos; lia|]. apply Z.lt_succ_r, Z.div_lt_upper_bound; lia. }
  destruct (5 <=? Z.rem rval 10); [|apply G; unfold maxValue; lia].
  destruct (Z.ltb_spec maxValue (Z.quot rval 10 + 1)); [constructor|apply G; lia].
Qed.
Lemma prod_comm d o : prod d o = prod o d. Proof. apply Z.mul_comm. Qed.
Lemma mul_cases d o : valid d -> valid o -> mulled d o (dec_mul d o) (dec_mul o d).
Proof.
  intros V W. destruct (Z_lt_le_dec (prod d o) (2 ^ 63)) as [L|L].
  - rewrite (mul_small d o V W L). rewrite mul_small; [|exact W|exact V|rewrite prod_comm; exact L]. rewrite (prod_comm o d), (Nat.add_comm (dscale o)).
    apply finish_cases; [split; [apply prod_nonneg|exact L]|]. intros P. unfold prod, maxValue in P.
    split; apply negb_true_iff, Z.eqb_neq; intros E; rewrite E in P; cbn in P; lia.
  - rewrite (mul_big d o V W L). rewrite mul_big; [|exact W|exact V|rewrite prod_comm; exact L]. rewrite (prod_comm o d), (Nat.add_comm (dscale o)), (mul_err_comm o d).
    destruct (_ =? 0)%nat; [constructor|].
    destruct (strip_zeros (rev (dec (prod d o))) (dscale d + dscale o)) as [rd s] eqn:St. destruct (18 <? _); [constructor|].
    destruct (strip_spec _ _ _ _ (Forall_rev (dec_ok (prod d o) (prod_nonneg d o))) St) as (D1 & _).
    destruct (drop_spec rd s 0 D1 ltac:(lia)) as (rd' & c' & Dr & D2 & Lr & _). rewrite Dr.
    assert (U : 0 <= undec (rev rd') < p10 18).
    { pose proof (undec_bounds (rev rd') (Forall_rev D2)) as U. rewrite rev_length in U. split; [apply U|]. eapply Z.lt_le_trans; [apply U|]. apply p10_mono. lia. }
    rewrite p10_18 in U. destruct ((c' =? 1) && (5 <=? hd 0 rd'))%bool; apply finish_cases; unfold maxValue; lia.
Qed.
(** C105. Mul is commutative in the same sense. *)
Theorem C105_mul_commutes d o : valid d -> valid o ->
  same_result (Done (dec_mul d o)) (Done (dec_mul o d)) /\ (denorm d = denorm o -> dec_mul d o = dec_mul o d).
Proof.
  intros V W. destruct (mul_cases d o V W) as [v s A L|e].
  - split; [|intros ->; reflexivity]. cbn [same_result]. rewrite (proj1 (norm_result v s (denorm d) A L)), (proj1 (norm_result v s (denorm o) A L)). reflexivity.
  - split; reflexivity.
Qed.

(** C105. 1 and 0 with Mul. *)
Theorem C105_mul_units d : valid d ->
  (exists r, dec_mul d (mkD 1 0 false) = (None, r) /\ (value r == value d)%Q) /\ dec_mul d (mkD 0 0 false) = (None, mkD 0 0 (denorm d)).
Proof.
  intros V. assert (V1 : valid (mkD 1 0 false)) by (split; [vm_compute; discriminate|cbn; lia]). assert (V0 : valid (mkD 0 0 false)) by (split; [vm_compute; discriminate|cbn; lia]). assert (B := valid_bound d V). split.
  - destruct (C40_small d (mkD 1 0 false) V V1) as (r & E & Q).
    + unfold prod. cbn [dval]. rewrite p10_18. lia.
    + cbn [dscale]. destruct V. lia.
    + exists r. split; [exact E|]. rewrite Q. unfold value at 2. cbn [dval dscale]. rewrite p10_0. apply Qmult_1_r.
  - assert (P : prod d (mkD 0 0 false) = 0) by (unfold prod; cbn; lia). rewrite mul_small_spec by (assumption || rewrite P; unfold maxValue; lia).
    rewrite P. assert (R : forall n, round_scale n 0 = 0) by (induction n; [reflexivity|exact IHn]). rewrite R, Z.mul_0_r. unfold apply_norm, normalize. reflexivity.
Qed.

(** C105. 0 and Add: exact up to scale 17.  Finding: a decimal of scale 18 is rounded to an integer by adding 0, or adding 0 panics
    (when it is below 0.1). *)
Theorem C105_add_zero d : valid d -> (dscale d <= 17)%nat ->
  exists r, dec_add d (mkD 0 0 false) = Done (None, r) /\ (value r == value d)%Q /\ (denorm d = true -> dval d <> 0 -> r = d).
Proof.
  intros V L. assert (V0 : valid (mkD 0 0 false)) by (split; [vm_compute; discriminate|cbn; lia]).
  assert (A : alignable d (mkD 0 0 false)).
  { unfold alignable, fits_scale. cbn [dval dscale]. destruct (dscale d) as [|k] eqn:E; [left; reflexivity|right; right]. split; [lia|].
    rewrite Nat.sub_0_r. assert (H := p10_mono (S k) 17 L). change (p10 17) with 100000000000000000 in H. rewrite p10_18. change (Z.max 1 (Z.abs 0)) with 1. lia. }
  rewrite (add_aligning d _ V V0 A). cbn [dval dscale]. rewrite Nat.max_0_r, Nat.sub_diag, p10_0, Z.mul_1_r, Z.mul_0_l, Z.add_0_r. unfold signed_sum.
  destruct (Z.leb_spec (Z.abs (dval d)) (p10 18 - 1)) as [Q|Q]; [|destruct V; lia].
  eexists. split; [reflexivity|]. split; [apply (norm_result (dval d) (dscale d) (denorm d) Q); apply V|].
  intros D N. rewrite apply_norm_keep by assumption. destruct d. reflexivity.
Qed.
Theorem C105_add_zero_refuted d n : valid d -> dscale d = 18%nat ->
  (p10 17 <= Z.abs (dval d) -> exists r, dec_add d (mkD 0 0 n) = Done (None, r) /\ (value r == inject_Z (round_half_away (dval d) (p10 18)))%Q) /\
  (Z.abs (dval d) < p10 17 -> dec_add d (mkD 0 0 n) = Panicked).
Proof.
  intros V L. assert (V0 : valid (mkD 0 0 n)) by (split; [vm_compute; discriminate|cbn; lia]).
  rewrite (add_rounding d _ V V0); [|cbn [dscale]; lia|rewrite L; unfold fits_scale; cbn [dval dscale]; rewrite Nat.sub_0_r, p10_18; vm_compute; intros Z; apply Z; reflexivity].
  cbn [dval dscale]. rewrite L. change (999999999999999994 <? Z.abs 0) with false. cbn [Nat.sub]. cbv iota. change (p10 (18 - 0 - 1)) with (p10 17). change (18 - 0)%nat with 18%nat.
  assert (H17 : p10 17 = 100000000000000000) by reflexivity. split; intros Q.
  - destruct (Z.leb_spec (p10 17) (Z.max 1 (Z.abs (dval d)))) as [Q'|Q']; [|lia]. rewrite Z.add_0_r. unfold signed_sum.
    assert (M : Z.abs (round_half_away (dval d) (p10 18)) <= 100000000000000000) by (apply round_half_mag; [rewrite p10_18; lia|apply V]).
    destruct (Z.leb_spec (Z.abs (round_half_away (dval d) (p10 18))) (p10 18 - 1)) as [Q2|Q2]; [|assert (P18 := p10_18); lia].
    eexists. split; [reflexivity|]. rewrite (proj1 (norm_result _ 0 (denorm d) Q2 ltac:(lia))). reflexivity.
  - destruct (Z.leb_spec (p10 17) (Z.max 1 (Z.abs (dval d)))) as [Q'|Q']; [lia|reflexivity].
Qed.

Lemma round_half_error z m : 0 < m -> 2 * Z.abs (round_half_away z m * m - z) <= m.
Proof.
  intros M. unfold round_half_away. set (q := (2 * Z.abs z + m) / (2 * m)).
  assert (H1 := Z.div_mod (2 * Z.abs z + m) (2 * m) ltac:(lia)). assert (H2 := Z.mod_pos_bound (2 * Z.abs z + m) (2 * m) ltac:(lia)). fold q in H1.
  assert (H3 : 2 * Z.abs (q * m - Z.abs z) <= m) by (rewrite <- Z.mul_assoc in H1; lia).
  assert (E : Z.sgn z * q * m - z = Z.sgn z * (q * m - Z.abs z)) by (rewrite <- (Z.abs_sgn z) at 2; ring).
  rewrite E, Z.abs_mul. destruct z; cbn [Z.sgn]; lia.
Qed.
Lemma signed_ok v s dn r : (s <= 18)%nat -> signed_sum v s dn = Done (None, r) -> (value r == Qmake v (Z.to_pos (p10 s)))%Q /\ valid r.
Proof.
  intros L. unfold signed_sum. destruct (Z.leb_spec (Z.abs v) (p10 18 - 1)); [|discriminate]. intros E. injection E as <-.
  destruct (norm_result v s dn H L) as (A & B & _). auto.
Qed.
Lemma add_value d o r : valid d -> valid o -> alignable d o -> dec_add d o = Done (None, r) -> (value r == value d + value o)%Q /\ valid r.
Proof.
  intros V W A E. destruct (add_exact d o V W A) as (H1 & H2 & H3). cbn zeta in *. set (sum := _ + _) in *.
  destruct (Z_le_gt_dec (Z.abs sum) (p10 18 - 1)) as [L|L].
  - destruct (H1 L) as (r' & E' & Q & Vr & _). rewrite E' in E. injection E as ->. auto.
  - exfalso. destruct (Z_lt_le_dec (p10 18 - 1) sum); [rewrite H2 in E by assumption; discriminate|]. rewrite H3 in E by lia. discriminate.
Qed.
Lemma rounded_error d o r : valid d -> valid o -> (dscale o < dscale d)%nat -> ~ fits_scale o (dscale d) -> dec_add d o = Done (None, r) ->
  (Qabs (value r - (value d + value o)) <= Qmake 1 (2 * Z.to_pos (p10 (dscale o))))%Q /\ valid r.
Proof.
  intros V W L F E. rewrite (add_rounding d o V W L F) in E. destruct (999999999999999994 <? _); [discriminate|]. destruct (_ <=? _); [|discriminate].
  set (x := round_half_away (dval d) (p10 (dscale d - dscale o))) in *. destruct (signed_ok _ _ _ _ (proj2 W) E) as [Q Vr]. split; [|exact Vr].
  assert (P := p10_pos (dscale d - dscale o)). assert (Po := p10_pos (dscale o)). assert (Pd := p10_pos (dscale d)).
  assert (Sp := p10_sub (dscale d) (dscale o) ltac:(lia)). assert (R := round_half_error (dval d) (p10 (dscale d - dscale o)) P). fold x in R.
  assert (D : (value r - (value d + value o) == Qmake (x * p10 (dscale d - dscale o) - dval d) (Z.to_pos (p10 (dscale d))))%Q).
  { rewrite Q. unfold value, Qeq, Qminus, Qplus, Qopp. cbn [Qnum Qden]. rewrite !Pos2Z.inj_mul, !Z2Pos.id by assumption. rewrite Sp. ring. }
  rewrite D. unfold Qabs, Qle. cbn [Qnum Qden]. rewrite Pos2Z.inj_mul, !Z2Pos.id by assumption. rewrite Sp. nia.
Qed.
(** C105. The result of Add is exact, or off by at most half a unit in the last place of the operand with fewer decimals; it is a
    decimal with at most 18 digits and a scale of at most 18. *)
Theorem C105_add_accuracy d o r : valid d -> valid o -> dec_add d o = Done (None, r) ->
  valid r /\ (Qabs (value r - (value d + value o)) <= Qmake 1 (2 * Z.to_pos (p10 (Nat.min (dscale d) (dscale o)))))%Q.
Proof.
  intros V W E. destruct (alignable_dec d o) as [A|[[L F]|[L F]]].
  - destruct (add_value d o r V W A E) as [Q Vr]. split; [exact Vr|]. rewrite Q. unfold Qminus. rewrite Qplus_opp_r. cbn. discriminate.
  - pose proof (proj1 (C105_add_commutes d o V W)) as C. rewrite E in C. destruct (dec_add o d) as [[[e|] r']| |] eqn:E'; try contradiction. cbn in C.
    destruct (rounded_error o d r' W V L F E') as [B Vr]. rewrite Nat.min_l by lia. split.
    + destruct (add_cases d o V W) as [v s Ls|e|]; try discriminate. exact (proj2 (signed_ok _ _ _ _ Ls E)).
    + rewrite C, (Qplus_comm (value d)). exact B.
  - destruct (rounded_error d o r V W L F E) as [B Vr]. rewrite Nat.min_r by lia. auto.
Qed.

(** C105. Where the operands align without rounding, Add is associative and keeps the order, and Sub undoes it. *)
Theorem C105_add_associates a b c ab bc l r : valid a -> valid b -> valid c -> alignable a b -> alignable b c -> alignable ab c -> alignable a bc ->
  dec_add a b = Done (None, ab) -> dec_add b c = Done (None, bc) -> dec_add ab c = Done (None, l) -> dec_add a bc = Done (None, r) -> (value l == value r)%Q.
Proof.
  intros Va Vb Vc A1 A2 A3 A4 E1 E2 E3 E4. destruct (add_value _ _ _ Va Vb A1 E1) as [Q1 V1]. destruct (add_value _ _ _ Vb Vc A2 E2) as [Q2 V2].
  destruct (add_value _ _ _ V1 Vc A3 E3) as [Q3 _]. destruct (add_value _ _ _ Va V2 A4 E4) as [Q4 _]. rewrite Q3, Q4, Q1, Q2. apply Qeq_sym, Qplus_assoc.
Qed.
Theorem C105_add_order a b c x y : valid a -> valid b -> valid c -> alignable a c -> alignable b c ->
  dec_add a c = Done (None, x) -> dec_add b c = Done (None, y) -> cmp x y = cmp a b.
Proof.
  intros Va Vb Vc A1 A2 E1 E2. destruct (add_value _ _ _ Va Vc A1 E1) as [Q1 V1]. destruct (add_value _ _ _ Vb Vc A2 E2) as [Q2 V2].
  rewrite (C36_cmp _ _ V1 V2), (C36_cmp _ _ Va Vb).
  destruct (Qcompare_spec (value x) (value y)) as [H|H|H], (Qcompare_spec (value a) (value b)) as [K|K|K]; try reflexivity; exfalso; rewrite Q1, Q2 in H.
  - apply Qplus_inj_r in H. rewrite H in K. exact (Qlt_irrefl _ K).
  - apply Qplus_inj_r in H. rewrite H in K. exact (Qlt_irrefl _ K).
  - apply Qplus_lt_l in H. rewrite K in H. exact (Qlt_irrefl _ H).
  - apply Qplus_lt_l in H. exact (Qlt_irrefl _ (Qlt_trans _ _ _ H K)).
  - apply Qplus_lt_l in H. rewrite K in H. exact (Qlt_irrefl _ H).
  - apply Qplus_lt_l in H. exact (Qlt_irrefl _ (Qlt_trans _ _ _ H K)).
Qed.
Lemma sum_scale v s dn : Z.abs v <= p10 18 - 1 -> (s <= 18)%nat -> let r := apply_norm (mkD v s dn) in
  (dscale r <= s)%nat /\ (v <> 0 -> dval r <> 0 /\ Z.abs (dval r) * p10 (s - dscale r) <= Z.abs v) /\ (v = 0 -> dval r = 0 /\ dscale r = 0%nat).
Proof.
  intros B L r. assert (I : int64 v) by (unfold int64; rewrite p10_18 in B; lia). unfold r, apply_norm. cbn [dval denorm].
  assert (N : forall x, x = normalize (mkD v s dn) -> (dscale x <= s)%nat /\ (v <> 0 -> dval x <> 0 /\ Z.abs (dval x) * p10 (s - dscale x) <= Z.abs v) /\ (v = 0 -> dval x = 0 /\ dscale x = 0%nat)).
  { intros x ->. destruct (normalize_spec (mkD v s dn) I) as (k & A & C & D & _). cbn [dval dscale] in *.
    pose proof (normalize_mag (mkD v s dn) I) as [_ M]. cbn [dscale] in M. split; [exact M|]. assert (Pk := p10_pos k). split.
    - intros Nv. destruct C as [C|C]; [contradiction|]. split; [intros E; rewrite E in A; lia|]. replace (s - dscale (normalize (mkD v s dn)))%nat with k by lia.
      rewrite A at 2. rewrite Z.abs_mul, (Z.abs_eq (p10 k)) by lia. lia.
    - intros Ev. split; [|apply D; exact Ev]. assert (A0 : dval (normalize (mkD v s dn)) * p10 k = 0) by lia. apply Z.mul_eq_0 in A0. destruct A0; [assumption|lia]. }
  destruct ((v =? 0) || negb dn) eqn:E; [apply N; reflexivity|]. apply orb_false_iff in E as [E _]. apply Z.eqb_neq in E. cbn [dval dscale].
  split; [lia|]. split; [|tauto]. intros _. rewrite Nat.sub_diag, p10_0. split; [exact E|lia].
Qed.
Theorem C105_sub_undoes d o r : valid d -> valid o -> alignable d o -> dec_add d o = Done (None, r) -> dval r <> 0 \/ (dscale o <= 17)%nat ->
  exists r', dec_sub r o = Done (None, r') /\ (value r' == value d)%Q.
Proof.
  intros V W A E Z. destruct (add_value _ _ _ V W A E) as [Q Vr]. assert (W' := negate_valid o W).
  rewrite (add_aligning d o V W A) in E. set (S' := Nat.max (dscale d) (dscale o)) in *. set (v := _ + _) in *. unfold signed_sum in E.
  destruct (Z.leb_spec (Z.abs v) (p10 18 - 1)) as [B|B]; [|discriminate]. injection E as Er.
  assert (LS : (S' <= 18)%nat) by (destruct V, W; lia). destruct (sum_scale v S' (denorm d) B LS) as (S1 & S2 & S3). rewrite Er in S1, S2, S3.
  assert (Fo : Z.max 1 (Z.abs (dval o)) * p10 (S' - dscale o) <= p10 18 - 1 \/ dscale o = S').
  { destruct A as [A|[[A _]|[A F]]]; [right; lia|right; lia|left]. unfold fits_scale in F. replace S' with (dscale d) by lia. exact F. }
  assert (A2 : alignable r o).
  { unfold alignable, fits_scale. destruct (Nat.lt_trichotomy (dscale r) (dscale o)) as [L|[L|L]]; [right; left; split; [exact L|]|left; exact L|right; right; split; [exact L|]].
    - assert (M : p10 (dscale o - dscale r) <= p10 (S' - dscale r)) by (apply p10_mono; lia). assert (P := p10_pos (dscale o - dscale r)).
      destruct (Z.eq_dec v 0) as [V0|V0].
      + destruct (S3 V0) as [R0 R1]. destruct Z as [Z|Z]; [contradiction|]. rewrite R0, R1, Nat.sub_0_r. change (Z.max 1 (Z.abs 0)) with 1.
        assert (M2 := p10_mono (dscale o) 17 Z). change (p10 17) with 100000000000000000 in M2. rewrite p10_18. lia.
      + destruct (S2 V0) as [R0 R1]. rewrite Z.max_r by lia. nia.
    - destruct Fo as [Fo|Fo]; [|lia]. assert (M : p10 (dscale r - dscale o) <= p10 (S' - dscale o)) by (apply p10_mono; lia). nia. }
  destruct (sub_exact r o Vr W A2) as (H & _). cbn zeta in H. set (T := Nat.max (dscale r) (dscale o)) in *. assert (LT : (T <= S')%nat) by lia.
  set (w := dval r * p10 (T - dscale r) - dval o * p10 (T - dscale o)) in *.
  assert (Q2 : (Qmake w (Z.to_pos (p10 T)) == value d)%Q).
  { assert (Q3 : (value d == value r - value o)%Q) by (rewrite Q; ring). rewrite Q3. rewrite <- (rescale_value r T true), <- (rescale_value o T true) by lia.
    unfold value, Qeq, Qminus, Qplus, Qopp, w. cbn [Qnum Qden dval dscale]. rewrite !Pos2Z.inj_mul, !Z2Pos.id by apply p10_pos. ring. }
  assert (Bw : Z.abs w <= p10 18 - 1).
  { unfold value, Qeq in Q2. cbn [Qnum Qden] in Q2. rewrite !Z2Pos.id in Q2 by apply p10_pos.
    assert (Bd : Z.abs (dval d) * p10 (S' - dscale d) <= p10 18 - 1).
    { destruct A as [A|[[A F]|[A F]]].
      - replace (S' - dscale d)%nat with 0%nat by lia. rewrite p10_0. destruct V. lia.
      - unfold fits_scale in F. replace S' with (dscale o) by lia. assert (P := p10_pos (dscale o - dscale d)). eapply Z.le_trans; [apply Z.mul_le_mono_nonneg_r; [lia|apply Z.le_max_r]|exact F].
      - replace (S' - dscale d)%nat with 0%nat by lia. rewrite p10_0. destruct V. lia. }
    assert (P1 := p10_pos (dscale d)). assert (P2 := p10_pos T). assert (P3 := p10_pos (S' - dscale d)).
    assert (M : p10 T <= p10 (S' - dscale d) * p10 (dscale d)) by (rewrite <- p10_sub by lia; apply p10_mono; lia).
    assert (X : Z.abs w * p10 (dscale d) = Z.abs (dval d) * p10 T) by (rewrite <- (Z.abs_eq (p10 (dscale d))) by lia; rewrite <- (Z.abs_eq (p10 T)) by lia; rewrite <- !Z.abs_mul, Q2; reflexivity).
    apply (Z.mul_le_mono_pos_r _ _ (p10 (dscale d)) P1). rewrite X. apply Z.le_trans with (Z.abs (dval d) * (p10 (S' - dscale d) * p10 (dscale d))); [apply Z.mul_le_mono_nonneg_l; [lia|exact M]|].
    rewrite Z.mul_assoc. apply Z.mul_le_mono_nonneg_r; [lia|exact Bd]. }
  destruct (H Bw) as (r' & E' & Q' & _). exists r'. split; [exact E'|]. rewrite Q', Q. ring.
Qed.

(** Findings: none of the three holds in general.  For every integer c of 17 digits, c + 0.4 is exact but c + 0.41 is c, so that the
    larger summand gives the smaller sum; 0.4 + (0.4 + c) is c for every c of 18 digits, but (0.4 + 0.4) + c is c + 1; and
    (0.5 + c) - c is 1.  Even when the operands align, (d + -d) - -d panics for every d of scale 18 below 0.1. *)
Theorem C105_order_refuted c : p10 16 <= c < p10 17 -> exists x y,
  dec_add (mkD c 0 false) (mkD 4 1 false) = Done (None, x) /\ dec_add (mkD c 0 false) (mkD 41 2 false) = Done (None, y) /\
  (value x == inject_Z c + (2 # 5))%Q /\ (value y == inject_Z c)%Q /\ cmp (mkD 4 1 false) (mkD 41 2 false) = -1 /\ cmp x y = 1.
Proof.
  change (p10 16) with 10000000000000000. change (p10 17) with 100000000000000000. intros R.
  assert (Vc : valid (mkD c 0 false)) by (split; cbn [dval dscale]; [rewrite p10_18|]; lia).
  assert (V1 : valid (mkD 4 1 false)) by (split; [vm_compute; discriminate|cbn; lia]). assert (V2 : valid (mkD 41 2 false)) by (split; [vm_compute; discriminate|cbn; lia]).
  assert (A : alignable (mkD c 0 false) (mkD 4 1 false)) by (right; left; split; [cbn; lia|unfold fits_scale; cbn [dval dscale]; change (p10 (1 - 0)) with 10; rewrite p10_18; lia]).
  destruct (C38_add _ _ Vc V1 A) as (H & _). destruct H as (x & E1 & Q1 & Vx & _).
  { cbn [dval dscale]. change (p10 (Nat.max 0 1 - 0)) with 10. change (p10 (Nat.max 0 1 - 1)) with 1. rewrite p10_18. lia. }
  assert (F : ~ fits_scale (mkD c 0 false) 2) by (unfold fits_scale; cbn [dval dscale]; change (p10 (2 - 0)) with 100; rewrite p10_18; lia).
  destruct (C105_add_commutes _ _ Vc V2) as (_ & Cm). assert (E2 := add_rounding _ _ V2 Vc ltac:(cbn; lia) F).
  rewrite <- Cm in E2 by reflexivity. cbn [dval dscale denorm] in E2. destruct (Z.ltb_spec 999999999999999994 (Z.abs c)) as [Q|_]; [lia|].
  change (p10 (2 - 0 - 1) <=? Z.max 1 (Z.abs 41)) with true in E2. cbv iota in E2. change (round_half_away 41 (p10 (2 - 0))) with 0 in E2. rewrite Z.add_0_l in E2.
  unfold signed_sum in E2. destruct (Z.leb_spec (Z.abs c) (p10 18 - 1)) as [Q|Q]; [|rewrite p10_18 in Q; lia].
  destruct (norm_result c 0 false Q ltac:(lia)) as (Q2 & Vy & _). cbn zeta in Q2, Vy.
  exists x, (apply_norm (mkD c 0 false)). split; [exact E1|]. split; [exact E2|].
  assert (X : (value x == inject_Z c + (2 # 5))%Q) by (rewrite Q1; unfold value, Qeq; cbn; lia).
  assert (Y : (value (apply_norm (mkD c 0 false)) == inject_Z c)%Q) by (rewrite Q2; unfold Qeq; cbn; lia).
  split; [exact X|]. split; [exact Y|]. split; [reflexivity|]. rewrite (C36_cmp _ _ Vx Vy).
  replace (value x ?= value (apply_norm (mkD c 0 false)))%Q with Gt; [reflexivity|]. symmetry. apply Qgt_alt. rewrite X, Y. rewrite <- (Qplus_0_r (inject_Z c)) at 1. apply Qplus_lt_r. reflexivity.
Qed.
Lemma sum18 c : p10 17 <= c <= 999999999999999994 -> forall v x, 0 < v < 100 -> round_half_away v 10 = x -> c + x <= 999999999999999999 -> 0 <= x ->
  dec_add (mkD v 1 false) (mkD c 0 false) = Done (None, mkD (c + x) 0 false).
Proof.
  change (p10 17) with 100000000000000000. intros R v x Rv Rx B P.
  assert (Vc : valid (mkD c 0 false)) by (split; cbn [dval dscale]; [rewrite p10_18|]; lia).
  assert (F : ~ fits_scale (mkD c 0 false) 1) by (unfold fits_scale; cbn [dval dscale]; change (p10 (1 - 0)) with 10; rewrite p10_18; lia).
  rewrite (add_rounding (mkD v 1 false)); [|split; cbn [dval dscale]; [rewrite p10_18|]; lia|exact Vc|cbn; lia|exact F]. cbn [dval dscale denorm].
  destruct (Z.ltb_spec 999999999999999994 (Z.abs c)) as [Q|_]; [lia|]. change (p10 (1 - 0 - 1)) with 1. destruct (Z.leb_spec 1 (Z.max 1 (Z.abs v))) as [_|Q]; [|lia].
  change (p10 (1 - 0)) with 10. rewrite Rx. unfold signed_sum. destruct (Z.leb_spec (Z.abs (x + c)) (p10 18 - 1)) as [_|Q]; [|rewrite p10_18 in Q; lia].
  unfold apply_norm, normalize. cbn [dval dscale denorm]. replace (x + c) with (c + x) by lia. destruct (Z.eqb_spec (c + x) 0); [lia|]. reflexivity.
Qed.
Theorem C105_assoc_refuted c : p10 17 <= c <= 999999999999999994 ->
  dec_add (mkD 4 1 false) (mkD c 0 false) = Done (None, mkD c 0 false) /\
  dec_add (mkD 4 1 false) (mkD 4 1 false) = Done (None, mkD 8 1 false) /\
  dec_add (mkD 8 1 false) (mkD c 0 false) = Done (None, mkD (c + 1) 0 false).
Proof.
  intros R. split; [|split].
  - replace (mkD c 0 false) with (mkD (c + 0) 0 false) at 2 by (f_equal; lia). apply (sum18 c R 4 0); [lia|reflexivity|lia|lia].
  - reflexivity.
  - apply (sum18 c R 8 1); [lia|reflexivity|lia|lia].
Qed.
Theorem C105_undo_refuted c : p10 17 <= c <= 999999999999999994 ->
  dec_add (mkD 5 1 false) (mkD c 0 false) = Done (None, mkD (c + 1) 0 false) /\ dec_sub (mkD (c + 1) 0 false) (mkD c 0 false) = Done (None, mkD 1 0 false).
Proof.
  intros R. split; [apply (sum18 c R 5 1); [lia|reflexivity|lia|lia]|]. change (p10 17) with 100000000000000000 in R.
  assert (Vc : valid (mkD c 0 false)) by (split; cbn [dval dscale]; [rewrite p10_18|]; lia).
  assert (Vd : valid (mkD (c + 1) 0 false)) by (split; cbn [dval dscale]; [rewrite p10_18|]; lia).
  unfold dec_sub. fold (dec_add (mkD (c + 1) 0 false) (negate (mkD c 0 false))). rewrite add_aligning; [|exact Vd|apply negate_valid; exact Vc|left; reflexivity].
  rewrite (negate_spec _ Vc). cbn [dval dscale denorm Nat.max Nat.sub]. rewrite p10_0. replace ((c + 1) * 1 + - c * 1) with 1 by lia. reflexivity.
Qed.
Theorem C105_undo_zero_refuted d : valid d -> dscale d = 18%nat -> Z.abs (dval d) < p10 17 ->
  alignable d (negate d) /\ dec_add d (negate d) = Done (None, mkD 0 0 (denorm d)) /\ dec_sub (mkD 0 0 (denorm d)) (negate d) = Panicked.
Proof.
  intros V L B. split; [left; rewrite (negate_spec d V); reflexivity|]. split; [exact (C105_sub_self d V)|].
  unfold dec_sub. rewrite (negate_twice d V). assert (V0 : valid (mkD 0 0 (denorm d))) by (split; [vm_compute; discriminate|cbn; lia]).
  destruct (C105_add_zero_refuted d (denorm d) V L) as [_ H]. specialize (H B). destruct (C105_add_commutes d (mkD 0 0 (denorm d)) V V0) as [_ C].
  rewrite (C eq_refl) in H. exact H.
Qed.
(** Finding: nor does Mul keep the order of positive numbers: 9999999.9 < 10000000.1, but times 1000000000.1 the results are
    9999999900999999.99 and 1000000010100000. *)
Theorem C105_mul_order_refuted :
  let a := mkD 99999999 1 false in let b := mkD 100000001 1 false in let c := mkD 10000000001 1 false in
  cmp a b = -1 /\ cmp c (mkD 0 0 false) = 1 /\ dec_mul a c = (None, mkD 999999990099999999 2 false) /\ dec_mul b c = (None, mkD 1000000010100000 0 false) /\
  cmp (mkD 999999990099999999 2 false) (mkD 1000000010100000 0 false) = 1.
Proof. vm_compute. repeat split; reflexivity. Qed.

(** C105. Every decimal that operations other than Div give has at most 18 digits and a scale of at most 18: the assumption the
    properties C34 to C41 make of their operands is never violated. *)
Lemma span_spec s : forall a b, span_digits s = (a, b) -> Forall (fun c => 48 <= c <= 57) a.
Proof.
  induction s as [|c s IH]; intros a b; cbn [span_digits]; [intros E; injection E as <- <-; constructor|].
  destruct (is_digit c) eqn:D; [|intros E; injection E as <- <-; constructor]. destruct (span_digits s) as [a' b']. intros E. injection E as <- <-.
  constructor; [unfold is_digit in D; apply andb_true_iff in D as [D1 D2]; apply Z.leb_le in D1, D2; lia|]. eapply IH; reflexivity.
Qed.
Lemma string_valid s d : string_to_decimal s = (None, d) -> valid d.
Proof.
  unfold string_to_decimal, match_decimal. destruct (match s with 45 :: r => (true, r) | _ => (false, s) end) as [m s1].
  destruct (span_digits s1) as [p2 s2] eqn:E2. destruct (match s2 with 46 :: r => (true, r) | _ => (false, s2) end) as [dt s3].
  destruct (span_digits s3) as [p3 s4] eqn:E3. destruct (_ || _) eqn:B; [discriminate|]. apply orb_false_iff in B as [_ B]. apply Nat.ltb_ge in B.
  intros E. injection E as <-. assert (D : digits_ok (map (fun c => c - 48) (p2 ++ p3))).
  { unfold digits_ok. apply Forall_map. apply Forall_app. split; [eapply Forall_impl; [|exact (span_spec _ _ _ E2)]|eapply Forall_impl; [|exact (span_spec _ _ _ E3)]]; cbn; lia. }
  assert (U := undec_bounds _ D). rewrite map_length, app_length in U. assert (P := p10_mono (length p2 + length p3) 18 B). rewrite p10_18 in P.
  unfold parse_digits. set (v := undec _) in *. destruct (Z.leb_spec v 9223372036854775807); [|lia]. split; cbn [dval dscale]; [|lia].
  rewrite p10_18. destruct m; [rewrite neg64_id by lia|]; lia.
Qed.
Lemma quo_rem_valid d o q r : valid d -> 0 <= o < 2 ^ 64 -> div_int_quo_rem d o = Done (None, q, r) ->
  valid q /\ valid r /\ dval q = Z.quot (dval d) (wrapS 64 o) /\ dscale q = dscale d /\ dec_sub d (mkD (Z.quot (dval d) (wrapS 64 o) * wrapS 64 o) (dscale d) (denorm d)) = Done (None, r) /\ wrapS 64 o <> 0.
Proof.
  intros V R. unfold div_int_quo_rem. destruct (Z.eqb_spec o 0) as [|N]; [discriminate|]. cbv zeta. destruct (_ <? _); [discriminate|].
  assert (N' : wrapS 64 o <> 0) by (destruct (wrapS_cong 64 o ltac:(lia)) as [k Hk]; rewrite Hk; lia). set (oi := wrapS 64 o) in *.
  assert (B := valid_bound d V). assert (Bq : Z.abs (Z.quot (dval d) oi) <= Z.abs (dval d)).
  { rewrite <- Z.quot_abs by exact N'. rewrite Z.quot_div_nonneg by lia. apply Z.div_le_upper_bound; [lia|]. nia. }
  assert (Bm : Z.abs (Z.quot (dval d) oi * oi) <= Z.abs (dval d)).
  { rewrite Z.abs_mul, <- Z.quot_abs by exact N'. rewrite Z.quot_div_nonneg by lia. rewrite Z.mul_comm. apply Z.mul_div_le. lia. }
  rewrite (wrap64_id (Z.quot (dval d) oi)) by (unfold int64; lia). cbn [dval]. rewrite (wrap64_id (Z.quot (dval d) oi * oi)) by (unfold int64; lia).
  set (m := mkD (Z.quot (dval d) oi * oi) (dscale d) (denorm d)) in *. assert (Vm : valid m) by (split; cbn [dval dscale m]; [rewrite p10_18; lia|apply V]).
  destruct (dec_sub d m) as [[[e|] x]| |] eqn:E; cbn [obind]; try discriminate. intros X. injection X as <- <-.
  split; [split; cbn [dval dscale]; [rewrite p10_18; lia|apply V]|]. split; [|auto].
  exact (proj1 (C105_add_accuracy d (negate m) x V (negate_valid m Vm) E)).
Qed.
Lemma part_valid d o l x : valid d -> 0 <= o < 2 ^ 64 -> div_int_add d o = Done (None, l) -> In x l -> valid x.
Proof.
  intros V R. unfold div_int_add. destruct (div_int_quo_rem d o) as [[[[e|] q] r]| |] eqn:E; cbn [obind]; try discriminate.
  destruct (quo_rem_valid d o q r V R E) as (Vq & Vr & Q & Sq & Sub & N). destruct (Z.ltb_spec (wrapS 64 o) 0) as [|P]; [discriminate|].
  intros X I. injection X as <-. apply in_map_iff in I as (i & <- & _). assert (B := valid_bound q Vq). assert (Bd := valid_bound d V).
  destruct (Z.ltb_spec (Z.of_nat i) (dval r)) as [L|L].
  2:{ rewrite Z.add_0_r, wrap64_id by (unfold int64; lia). split; cbn [dval dscale]; [rewrite p10_18; lia|apply V]. }
  rewrite wrap64_id by (unfold int64; lia). split; cbn [dval dscale]; [|apply V]. rewrite p10_18.
  assert (O2 : wrapS 64 o <> 1).
  { intros E1. rewrite E1, Z.quot_1_r, Z.mul_1_r in Sub. replace (mkD (dval d) (dscale d) (denorm d)) with d in Sub by (destruct d; reflexivity). rewrite C105_sub_self in Sub by exact V.
    injection Sub as <-. cbn [dval] in L. lia. }
  set (oi := wrapS 64 o) in *. assert (H : Z.abs (Z.quot (dval d) oi) <= 500000000000000000).
  { rewrite <- Z.quot_abs by exact N. rewrite Z.quot_div_nonneg by lia. apply Z.div_le_upper_bound; [lia|]. nia. }
  lia.
Qed.
Theorem C105_closed d : reachable d -> valid d.
Proof.
  induction 1 as [|v s n d I E|s d E|d _ IH|d _ IH|d o d' o' _ V _ W E|d o d' o' _ V _ W E|d o r _ V _ W E|d o r _ V _ W E|d o r _ V _ W E|d o q r _ V R E|d o q r _ V R E|d o l x _ V R E I].
  - split; [vm_compute; discriminate|cbn; lia].
  - destruct (C34_of_decimal v s n I) as [A B]. destruct (le_dec s 18) as [L|L]; [destruct (Z_le_dec (Z.abs v) (p10 18 - 1)) as [M|M]|].
    + destruct (A (conj L M)) as (d' & E' & _ & V & _). rewrite E' in E. injection E as ->. exact V.
    + destruct B as [e B]; [tauto|]. rewrite B in E. discriminate.
    + destruct B as [e B]; [tauto|]. rewrite B in E. discriminate.
  - exact (string_valid s d E).
  - apply negate_valid. exact IH.
  - apply normalize_valid. exact IH.
  - pose proof (adjust_cases d o V W) as A. rewrite E in A. inversion A; subst. split; cbn [dval dscale]; auto.
  - pose proof (adjust_cases d o V W) as A. rewrite E in A. inversion A; subst. split; cbn [dval dscale]; auto.
  - exact (proj1 (C105_add_accuracy d o r V W E)).
  - exact (proj1 (C105_add_accuracy d (negate o) r V (negate_valid o W) E)).
  - pose proof (mul_cases d o V W) as A. rewrite E in A. inversion A as [v s B L X|]; subst. exact (proj1 (proj2 (norm_result v s (denorm d) B L))).
  - apply (quo_rem_valid d o q r V R E).
  - apply (quo_rem_valid d o q r V R E).
  - exact (part_valid d o l x V R E I).
Qed.
(** Finding: Div leaves that range: the quotient of 10^-18 and 3 has scale 36, and asking whether its magnitude is less than one panics. *)
Theorem C105_div_refuted :
  dec_div 110 (mkD 1 18 false) (mkD 3 0 false) = Done (None, mkD 333333333333333333 36 false) /\ magnitude_lt_one (mkD 333333333333333333 36 false) = Panicked.
Proof. split; vm_compute; reflexivity. Qed.

(** The hypotheses are met: 1.5, 1.25 and 12345678901234567. *)
Example C105_nonvacuous :
  valid (mkD 15 1 false) /\ valid (mkD 125 2 false) /\ valid (mkD 12345678901234567 0 false) /\ reachable (mkD 15 1 false) /\
  alignable (mkD 15 1 false) (mkD 125 2 false) /\ dec_add (mkD 15 1 false) (mkD 125 2 false) = Done (None, mkD 275 2 false) /\
  dec_sub (mkD 15 1 false) (mkD 125 2 false) = Done (None, mkD 25 2 false) /\ dec_sub (mkD 125 2 false) (mkD 15 1 false) = Done (None, mkD (-25) 2 false) /\
  dec_add (mkD 125 2 false) (mkD 123456789012345678 1 false) = Done (None, mkD 123456789012345691 1 false) /\
  dec_add (mkD 1 18 false) (mkD 0 0 false) = Panicked.
Proof.
  split; [split; [vm_compute; discriminate|cbn; lia]|]. split; [split; [vm_compute; discriminate|cbn; lia]|]. split; [split; [vm_compute; discriminate|cbn; lia]|].
  split; [apply (reach_new 15 1 true); [split; vm_compute; [discriminate|reflexivity]|reflexivity]|].
  split; [right; left; split; [cbn; lia|vm_compute; discriminate]|]. repeat split; vm_compute; reflexivity.
Qed.
