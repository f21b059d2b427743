(** Proofs for C118: programs built from Must calls. *)
From Coq Require Import Qabs.
From Verif Require Import Base GoInt FuncsFn FuncsFnSpec FuncsFnProofs Decimal DecimalSpec DecDigits DecimalProofs DecimalProofs2 DecimalProofs3 DecimalProofs4 Must MustSpec.
Close Scope Q_scope.
Open Scope Z_scope.

(** ** bodies *)
Lemma body_ok {W} (steps : list (W -> W * option err)) : forall w w', all_ok steps w w' -> must_body steps w = (w', None).
Proof.
  induction steps as [|f r IH]; cbn [all_ok must_body]; intros w w' H; [congruence|].
  destruct (f w) as [w1 e]. cbn [fst snd] in H. destruct H as [-> H]. cbn [must]. auto.
Qed.
Lemma body_app {W} (a : list (W -> W * option err)) b : forall w w', all_ok a w w' -> must_body (a ++ b) w = must_body b w'.
Proof.
  induction a as [|f r IH]; cbn [all_ok must_body app]; intros w w' H; [congruence|].
  destruct (f w) as [w1 e]. cbn [fst snd] in H. destruct H as [-> H]. cbn [must]. auto.
Qed.
Lemma body_cases {W} (steps : list (W -> W * option err)) : forall w,
  (exists w', all_ok steps w w') \/ exists a f b w1 w2 e, steps = a ++ f :: b /\ all_ok a w w1 /\ f w1 = (w2, Some e).
Proof.
  induction steps as [|f r IH]; intros w; [left; exists w; reflexivity|].
  destruct (f w) as [w1 [e|]] eqn:E.
  - right. exists [], f, r, w, w1, e. cbn. auto.
  - destruct (IH w1) as [[w' H]|(a & g & b & w2 & w3 & e & -> & H & G)].
    + left. exists w'. cbn [all_ok]. rewrite E. auto.
    + right. exists (f :: a), g, b, w2, w3, e. cbn [all_ok app]. rewrite E. auto.
Qed.
Lemma try_panics {W V} (tryFn : @thunk W V) panicFn closers w w1 v :
  tryFn w = (w1, Some (PVal v)) -> panics (rev closers) w1 = [] ->
  try_to tryFn panicFn closers w = panicFn v (world_after (rev closers) w1).
Proof.
  intros E H. unfold try_to. rewrite push_defers_rev, app_nil_r, E, run_defers_spec, H. reflexivity.
Qed.
Lemma try_returns {W V} (tryFn : @thunk W V) panicFn closers w w1 :
  tryFn w = (w1, None) -> panics (rev closers) w1 = [] ->
  try_to tryFn panicFn closers w = (world_after (rev closers) w1, None).
Proof.
  intros E H. unfold try_to. rewrite push_defers_rev, app_nil_r, E, run_defers_spec, H. reflexivity.
Qed.

(** ** expressions *)
Lemma must_add_ends d o : must_add d o <> OutOfFuel /\ must_add d o <> Panicked.
Proof.
  unfold must_add, must_call, dec_add, add_decimal, adjust_scale, adjust_larger.
  repeat match goal with |- context [if ?b then _ else _] => destruct b
         | |- context [match nth_error ?a ?b with _ => _ end] => destruct (nth_error a b)
         | |- context [let '(_, _) := round_loop ?a ?b in _] => destruct (round_loop a b) as [? []]
         | _ => progress cbn [obind] end; split; discriminate.
Qed.
Lemma eval_ends e : exists r, eval e = Done r.
Proof.
  assert (K : forall f x y, (forall a b, exists r, f a b = Done r) -> (exists r, x = Done r) -> (exists r, y = Done r) -> exists r, call2 f x y = Done r).
  { intros f x y F [[a|p] ->] [[b|p'] ->]; cbn [call2]; eauto. }
  assert (A : forall a b, exists r, must_add a b = Done r).
  { intros a b. destruct (must_add_ends a b) as [H1 H2]. destruct (must_add a b); eauto; congruence. }
  assert (B : forall a b, exists r, must_mul a b = Done r).
  { intros a b. unfold must_mul, must_call. destruct (dec_mul a b); eauto. }
  induction e as [d|a IHa b IHb|a IHa b IHb|a IHa b IHb]; cbn [eval]; eauto.
Qed.

Notation M := (p10 18 - 1).
Definition U (n : nat) (d : decimal) : Z := dval d * p10 (n - dscale d).

Lemma U_value n d : (dscale d <= n)%nat -> (value d == Qmake (U n d) (Z.to_pos (p10 n)))%Q.
Proof.
  intros H. unfold value, Qeq, U. cbn [Qnum Qden]. rewrite !pos_p10.
  replace (p10 n) with (p10 (n - dscale d) * p10 (dscale d)); [ring|]. rewrite <- p10_add. f_equal. lia.
Qed.
Lemma fits_U n z : fits n (Qmake z (Z.to_pos (p10 n))) <-> Z.abs z <= M.
Proof.
  unfold fits, Qle, Qabs. cbn [Qnum Qden]. rewrite !pos_p10. pose proof (p10_pos n). split; intros; nia.
Qed.
Lemma fits_value n d : (dscale d <= n)%nat -> fits n (value d) -> Z.abs (U n d) <= M.
Proof. intros H F. apply (fits_U n). unfold fits in *. rewrite <- (U_value n d H). exact F. Qed.
Lemma p10_le a b : (a <= b)%nat -> p10 a <= p10 b.
Proof. intros H. unfold p10. apply Z.pow_le_mono_r; lia. Qed.

Lemma U_fits n d s : (n <= 17)%nat -> (s <= n)%nat -> Z.abs (U n d) <= M -> fits_scale d s.
Proof.
  intros N H B. unfold fits_scale. unfold U in B. rewrite Z.abs_mul, (Z.abs_eq (p10 _)) in B by (pose proof (p10_pos (n - dscale d)); lia).
  destruct (Z.eq_dec (dval d) 0) as [->|Z0].
  - cbn [Z.abs Z.max]. pose proof (p10_le (s - dscale d) 17 ltac:(lia)). rewrite p10_18. change (p10 17) with 100000000000000000 in *. lia.
  - rewrite Z.max_r by lia. pose proof (p10_le (s - dscale d) (n - dscale d) ltac:(lia)). nia.
Qed.
Lemma U_alignable n d o : (n <= 17)%nat -> (dscale d <= n)%nat -> (dscale o <= n)%nat -> Z.abs (U n d) <= M -> Z.abs (U n o) <= M -> alignable d o.
Proof.
  intros N H1 H2 B1 B2. unfold alignable. destruct (Nat.lt_trichotomy (dscale d) (dscale o)) as [L|[L|L]]; auto.
  - right; left. split; auto. apply (U_fits n); auto.
  - right; right. split; auto. apply (U_fits n); auto.
Qed.
Lemma apply_norm_scale d : int64 (dval d) -> (dscale (apply_norm d) <= dscale d)%nat.
Proof. intros I. unfold apply_norm. destruct (_ || _); [apply normalize_mag; auto|lia]. Qed.

(** a sum of operands that have at most 18 digits at scale n *)
Lemma add_at n d o : (n <= 17)%nat -> valid d -> valid o -> (dscale d <= n)%nat -> (dscale o <= n)%nat ->
  Z.abs (U n d) <= M -> Z.abs (U n o) <= M ->
  let m := Nat.max (dscale d) (dscale o) in
  let sum := U m d + U m o in
  dec_add d o = if Z.abs sum <=? M then Done (None, apply_norm (mkD sum m (denorm d)))
                else Done (Some (if 0 <? sum then ErrDecOverflow else ErrDecUnderflow), mkD 0 0 false).
Proof.
  intros N V1 V2 H1 H2 B1 B2 m sum. destruct (adjust_alignable d o V1 V2 (U_alignable n d o N H1 H2 B1 B2)) as [E [M1 M2]].
  fold m in E, M1, M2. unfold dec_add. rewrite (add_aligned d o _ _ E); auto.
Qed.
Lemma U_shift n m d : (dscale d <= m)%nat -> (m <= n)%nat -> U n d = U m d * p10 (n - m).
Proof. intros H1 H2. unfold U. replace (n - dscale d)%nat with ((m - dscale d) + (n - m))%nat by lia. rewrite p10_add. ring. Qed.

Lemma add_fits n d o : (n <= 17)%nat -> valid d -> valid o -> (dscale d <= n)%nat -> (dscale o <= n)%nat ->
  fits n (value d) -> fits n (value o) -> fits n (value d + value o) ->
  exists r, dec_add d o = Done (None, r) /\ valid r /\ (value r == value d + value o)%Q /\ (dscale r <= Nat.max (dscale d) (dscale o))%nat.
Proof.
  intros N V1 V2 H1 H2 F1 F2 F. apply fits_value in F1; auto. apply fits_value in F2; auto.
  assert (FS : Z.abs (U n d + U n o) <= M).
  { apply (fits_U n). unfold fits in *. rewrite (U_value n d H1), (U_value n o H2) in F.
    assert (X := add_same_scale (mkD (U n d) n false) (mkD (U n o) n false) eq_refl). cbn [dval dscale] in X. rewrite X. exact F. }
  pose proof (add_at n d o N V1 V2 H1 H2 F1 F2) as A. cbv zeta in A. set (m := Nat.max (dscale d) (dscale o)) in *.
  assert (MS : Z.abs (U m d + U m o) <= M).
  { rewrite (U_shift n m d), (U_shift n m o) in FS by lia. rewrite <- Z.mul_add_distr_r, Z.abs_mul in FS.
    pose proof (p10_pos (n - m)). rewrite (Z.abs_eq (p10 _)) in FS by lia. nia. }
  destruct (Z.leb_spec (Z.abs (U m d + U m o)) M); [|lia]. eexists. split; [exact A|].
  destruct (norm_result (U m d + U m o) m (denorm d) MS ltac:(lia)) as [N1 [N2 _]].
  split; auto. split.
  - rewrite N1. assert (X := add_same_scale (mkD (U m d) m false) (mkD (U m o) m false) eq_refl). cbn [dval dscale] in X. rewrite X.
    unfold value at 1 2. cbn [dval dscale]. rewrite <- (U_value m d), <- (U_value m o) by lia. reflexivity.
  - etransitivity; [apply apply_norm_scale; cbn [dval]|cbn [dscale]; lia]. unfold int64. rewrite p10_18 in MS. lia.
Qed.
Lemma negate_valid o : valid o -> valid (negate o) /\ dscale (negate o) = dscale o /\ (value (negate o) == - value o)%Q.
Proof.
  intros V. rewrite (negate_spec o V). split; [|split; reflexivity].
  destruct V as [A B]. split; cbn [dval dscale]; [rewrite Z.abs_opp|]; auto.
Qed.
Lemma fits_proper n p q : (p == q)%Q -> fits n p -> fits n q.
Proof. intros E F. unfold fits in *. rewrite <- E. exact F. Qed.
Lemma sub_fits n d o : (n <= 17)%nat -> valid d -> valid o -> (dscale d <= n)%nat -> (dscale o <= n)%nat ->
  fits n (value d) -> fits n (value o) -> fits n (value d - value o) ->
  exists r, dec_sub d o = Done (None, r) /\ valid r /\ (value r == value d - value o)%Q /\ (dscale r <= Nat.max (dscale d) (dscale o))%nat.
Proof.
  intros N V1 V2 H1 H2 F1 F2 F. destruct (negate_valid o V2) as [V [Sc E]]. unfold dec_sub.
  destruct (add_fits n d (negate o)) as (r & A & B & C & D); auto; try lia.
  - unfold fits in *. rewrite E, Qabs_opp. exact F2.
  - unfold fits in *. rewrite E. exact F.
  - exists r. split; [exact A|]. split; auto. split; [rewrite C, E; reflexivity|lia].
Qed.
Lemma mul_fits n d o : (n <= 17)%nat -> valid d -> valid o -> (dscale d + dscale o <= n)%nat -> fits n (value d * value o) ->
  exists r, dec_mul d o = (None, r) /\ valid r /\ (value r == value d * value o)%Q /\ (dscale r <= dscale d + dscale o)%nat.
Proof.
  intros N V1 V2 H F.
  assert (E : (value d * value o == Qmake (dval d * dval o * p10 (n - (dscale d + dscale o))) (Z.to_pos (p10 n)))%Q).
  { rewrite value_mult. unfold Qeq. cbn [Qnum Qden]. rewrite Pos2Z.inj_mul, !pos_p10.
    replace (p10 n) with (p10 (n - (dscale d + dscale o)) * (p10 (dscale d) * p10 (dscale o))); [ring|].
    rewrite <- !p10_add. f_equal. lia. }
  apply (fits_proper _ _ _ E) in F. apply fits_U in F. rewrite !Z.abs_mul in F. fold (prod d o) in F.
  pose proof (p10_pos (n - (dscale d + dscale o))). rewrite (Z.abs_eq (p10 _)) in F by lia.
  assert (P : prod d o <= M) by (pose proof (prod_nonneg d o); nia).
  assert (A : prod d o <= maxValue) by (rewrite p10_18 in P; unfold maxValue; lia).
  pose proof (mul_small_spec d o V1 V2 A) as X. replace (dscale d + dscale o - 18)%nat with 0%nat in X by lia. cbn [round_scale] in X.
  rewrite Nat.min_l in X by lia. eexists. split; [exact X|].
  destruct (norm_result (sg d o * prod d o) (dscale d + dscale o) (denorm d)) as [N1 [N2 _]].
  { rewrite sg_mag, Z.abs_eq by apply prod_nonneg. exact P. } { lia. }
  split; auto. split.
  - rewrite N1, value_mult. unfold Qeq. cbn [Qnum Qden]. rewrite Pos2Z.inj_mul, !pos_p10, p10_add, sg_mul. unfold prod. ring.
  - etransitivity; [apply apply_norm_scale; cbn [dval]|cbn [dscale]; lia]. pose proof (sg_mag d o (prod d o)). rewrite (Z.abs_eq (prod d o)) in * by apply prod_nonneg.
    unfold int64. rewrite p10_18 in P. lia.
Qed.

Lemma in_parts_self e : In e (parts e).
Proof. destruct e; left; reflexivity. Qed.

Theorem eval_exact n : (n <= 17)%nat -> forall e, (decimals e <= n)%nat -> lits_ok valid e -> (forall x, In x (parts e) -> fits n (exact x)) ->
  exists r, eval e = Done (inl r) /\ valid r /\ (value r == exact e)%Q /\ (dscale r <= decimals e)%nat.
Proof.
  intros N. induction e as [d|a IHa b IHb|a IHa b IHb|a IHa b IHb]; intros D L F; cbn [eval decimals] in *.
  - exists d. repeat split; auto; try apply (L (DLit d) d (or_introl eq_refl) eq_refl).
  - destruct IHa as (r1 & E1 & V1 & Q1 & S1); [lia|intros x y H; apply L; right; apply in_or_app; auto|intros x H; apply F; right; apply in_or_app; auto|].
    destruct IHb as (r2 & E2 & V2 & Q2 & S2); [lia|intros x y H; apply L; right; apply in_or_app; auto|intros x H; apply F; right; apply in_or_app; auto|].
    rewrite E1, E2. cbn [call2]. unfold must_add.
    destruct (add_fits n r1 r2) as (r & E & V & Q & Sr); auto; try lia.
    + apply (fits_proper n (exact a)); [symmetry; auto|]. apply F; right; apply in_or_app; left; apply in_parts_self.
    + apply (fits_proper n (exact b)); [symmetry; auto|]. apply F; right; apply in_or_app; right; apply in_parts_self.
    + apply (fits_proper n (exact (DAdd a b))); [cbn [exact]; rewrite Q1, Q2; reflexivity|]. apply F, in_parts_self.
    + rewrite E. exists r. split; [reflexivity|]. split; auto. split; [cbn [exact]; rewrite Q, Q1, Q2; reflexivity|lia].
  - destruct IHa as (r1 & E1 & V1 & Q1 & S1); [lia|intros x y H; apply L; right; apply in_or_app; auto|intros x H; apply F; right; apply in_or_app; auto|].
    destruct IHb as (r2 & E2 & V2 & Q2 & S2); [lia|intros x y H; apply L; right; apply in_or_app; auto|intros x H; apply F; right; apply in_or_app; auto|].
    rewrite E1, E2. cbn [call2]. unfold must_sub.
    destruct (sub_fits n r1 r2) as (r & E & V & Q & Sr); auto; try lia.
    + apply (fits_proper n (exact a)); [symmetry; auto|]. apply F; right; apply in_or_app; left; apply in_parts_self.
    + apply (fits_proper n (exact b)); [symmetry; auto|]. apply F; right; apply in_or_app; right; apply in_parts_self.
    + apply (fits_proper n (exact (DSub a b))); [cbn [exact]; rewrite Q1, Q2; reflexivity|]. apply F, in_parts_self.
    + rewrite E. exists r. split; [reflexivity|]. split; auto. split; [cbn [exact]; rewrite Q, Q1, Q2; reflexivity|lia].
  - destruct IHa as (r1 & E1 & V1 & Q1 & S1); [lia|intros x y H; apply L; right; apply in_or_app; auto|intros x H; apply F; right; apply in_or_app; auto|].
    destruct IHb as (r2 & E2 & V2 & Q2 & S2); [lia|intros x y H; apply L; right; apply in_or_app; auto|intros x H; apply F; right; apply in_or_app; auto|].
    rewrite E1, E2. cbn [call2]. unfold must_mul.
    destruct (mul_fits n r1 r2) as (r & E & V & Q & Sr); auto; try lia.
    + apply (fits_proper n (exact (DMul a b))); [cbn [exact]; rewrite Q1, Q2; reflexivity|]. apply F, in_parts_self.
    + rewrite E. exists r. split; [reflexivity|]. split; auto. split; [cbn [exact]; rewrite Q, Q1, Q2; reflexivity|lia].
Qed.

(** ** amounts *)
Lemma amount_U n d : (n <= 17)%nat -> amount n d -> Z.abs (U n d) <= M /\ (dscale d <= n)%nat.
Proof.
  intros N (V & D & [E|[E L]]); unfold U.
  - rewrite E, Nat.sub_diag, p10_0, Z.mul_1_r. split; [apply V|lia].
  - rewrite E. rewrite p10_18. cbn. split; [lia|auto].
Qed.
Lemma amount_result n z : (n <= 17)%nat -> Z.abs z <= M -> forall m, (m = n \/ z = 0 /\ (m <= n)%nat) ->
  amount n (apply_norm (mkD z m true)) /\ U n (apply_norm (mkD z m true)) = z.
Proof.
  intros N B m H. destruct (Z.eq_dec z 0) as [->|NZ].
  - unfold apply_norm, normalize. cbn [dval dscale denorm Z.eqb orb]. split; [|reflexivity].
    split; [|split; [reflexivity|right; cbn; split; [reflexivity|lia]]]. split; cbn [dval dscale]; [rewrite p10_18; cbn; lia|lia].
  - rewrite apply_norm_keep by (cbn; auto). destruct H as [->|[H _]]; [|contradiction]. unfold U. cbn [dval dscale]. rewrite Nat.sub_diag, p10_0, Z.mul_1_r.
    split; [|reflexivity]. split; [split; cbn [dval dscale]; [exact B|lia]|]. auto.
Qed.
Lemma amount_add n d o : (n <= 17)%nat -> amount n d -> amount n o ->
  match check (U n d + U n o) with
  | inl z => exists r, dec_add d o = Done (None, r) /\ amount n r /\ U n r = z
  | inr e => dec_add d o = Done (Some e, mkD 0 0 false)
  end.
Proof.
  intros N A1 A2. destruct (amount_U n d N A1) as [B1 L1]. destruct (amount_U n o N A2) as [B2 L2].
  pose proof (add_at n d o N (proj1 A1) (proj1 A2) L1 L2 B1 B2) as A. cbv zeta in A. set (m := Nat.max (dscale d) (dscale o)) in *.
  assert (E : U m d + U m o = U n d + U n o /\ (m = n \/ U n d + U n o = 0 /\ (m <= n)%nat)).
  { destruct A1 as (_ & _ & [E1|[E1 _]]), A2 as (_ & _ & [E2|[E2 _]]).
    - replace m with n by lia. auto.
    - replace m with n by lia. auto.
    - replace m with n by lia. auto.
    - unfold U. rewrite E1, E2. split; [reflexivity|right]. split; [reflexivity|lia]. }
  destruct E as [E EM]. rewrite E in A. rewrite (proj1 (proj2 A1)) in A. unfold check.
  rewrite p10_18 in *.
  destruct (Z.ltb_spec (1000000000000000000 - 1) (U n d + U n o)) as [O|O].
  { rewrite A. destruct (Z.leb_spec (Z.abs (U n d + U n o)) (1000000000000000000 - 1)); [lia|]. destruct (Z.ltb_spec 0 (U n d + U n o)); [reflexivity|lia]. }
  destruct (Z.ltb_spec (U n d + U n o) (- (1000000000000000000 - 1))) as [O'|O'].
  { rewrite A. destruct (Z.leb_spec (Z.abs (U n d + U n o)) (1000000000000000000 - 1)); [lia|]. destruct (Z.ltb_spec 0 (U n d + U n o)); [lia|reflexivity]. }
  destruct (Z.leb_spec (Z.abs (U n d + U n o)) (1000000000000000000 - 1)); [|lia]. eexists. split; [exact A|].
  apply amount_result; auto.
Qed.
Lemma amount_negate n o : amount n o -> amount n (negate o) /\ U n (negate o) = - U n o.
Proof.
  intros (V & D & H). destruct (negate_valid o V) as [V' _]. rewrite (negate_spec o V) in *. unfold U, amount. cbn [dval dscale denorm].
  split; [|ring]. split; auto. split; auto. destruct H as [H|[-> H]]; auto.
Qed.

Theorem eval_money n : (n <= 17)%nat -> forall e, no_product e -> lits_ok (amount n) e ->
  match units n e with
  | inl z => exists r, eval e = Done (inl r) /\ amount n r /\ U n r = z
  | inr er => eval e = Done (inr (PErr er))
  end.
Proof.
  intros N. induction e as [d|a IHa b IHb|a IHa b IHb|a IHa b IHb]; intros NP L; cbn [units eval no_product] in *; [| | |tauto].
  - exists d. split; [reflexivity|]. split; [|reflexivity]. apply (L (DLit d) d (or_introl eq_refl) eq_refl).
  - specialize (IHa (proj1 NP)). specialize (IHb (proj2 NP)).
    assert (La : lits_ok (amount n) a) by (intros x y H; apply L; right; apply in_or_app; auto).
    assert (Lb : lits_ok (amount n) b) by (intros x y H; apply L; right; apply in_or_app; auto).
    specialize (IHa La). specialize (IHb Lb).
    destruct (units n a) as [x|ex]; cbn [then_check]; [|rewrite IHa; reflexivity].
    destruct IHa as (r1 & E1 & A1 & U1). rewrite E1. cbn [call2].
    destruct (units n b) as [y|ey]; [|rewrite IHb; reflexivity].
    destruct IHb as (r2 & E2 & A2 & U2). rewrite E2. pose proof (amount_add n r1 r2 N A1 A2) as A. rewrite U1, U2 in A. unfold must_add.
    destruct (check (x + y)) as [z|ez]; [|rewrite A; reflexivity]. destruct A as (r & E & AM & UU). rewrite E. exists r. auto.
  - specialize (IHa (proj1 NP)). specialize (IHb (proj2 NP)).
    assert (La : lits_ok (amount n) a) by (intros x y H; apply L; right; apply in_or_app; auto).
    assert (Lb : lits_ok (amount n) b) by (intros x y H; apply L; right; apply in_or_app; auto).
    specialize (IHa La). specialize (IHb Lb).
    destruct (units n a) as [x|ex]; cbn [then_check]; [|rewrite IHa; reflexivity].
    destruct IHa as (r1 & E1 & A1 & U1). rewrite E1. cbn [call2].
    destruct (units n b) as [y|ey]; [|rewrite IHb; reflexivity].
    destruct IHb as (r2 & E2 & A2 & U2). rewrite E2. destruct (amount_negate n r2 A2) as [A2' U2'].
    pose proof (amount_add n r1 (negate r2) N A1 A2') as A. rewrite U1, U2', U2 in A. unfold must_sub, dec_sub.
    rewrite <- Z.add_opp_r. unfold dec_add in A.
    destruct (check (x + - y)) as [z|ez]; [|rewrite A; reflexivity]. destruct A as (r & E & AM & UU). rewrite E. exists r. auto.
Qed.
