(** Properties C81-C84: big numbers handled through pointers. *)
From Coq Require Import ZArith List QArith Lia Bool.
From Verif Require Import Base Iter IterSpec IterProofs IterGen GoInt MathInt MathIntSpec MathIntProofs StreamSpec Float FloatSpec FloatProofs2 Big BigSpec
  BigProofs BigProofs2.
Close Scope Q_scope.
Open Scope Z_scope.

(** ** C81. Div and DivBigOps on pointers *)
(** big.Int: the quotient may go into the object of the dividend or into any other object, except that of the divisor; nothing
    else in the heap changes. *)
Theorem C81_div_int h de dv qa n d : nth_error h de = Some n -> nth_error h dv = Some d -> (qa < length h)%nat -> qa <> dv -> d <> 0 ->
  exists q, div_bigint h de dv (Some qa) = Done (None, Some qa, store h qa q) /\ (~ bad_div n d -> rounds_to n d q) /\ (bad_div n d -> q = 1).
Proof.
  intros E1 E2 L N D. exists (rq n d). split; [apply div_bigint_at; auto|]. split; [apply rq_rounds; exact D|apply rq_bad; exact D].
Qed.
(** a nil quotient is allocated *)
Theorem C81_div_int_nil h de dv n d : nth_error h de = Some n -> nth_error h dv = Some d -> d <> 0 ->
  exists q, div_bigint h de dv None = Done (None, Some (length h), h ++ [q]) /\ (~ bad_div n d -> rounds_to n d q) /\ (bad_div n d -> q = 1).
Proof.
  intros E1 E2 D. exists (rq n d). split; [apply div_bigint_nil; auto|]. split; [apply rq_rounds; exact D|apply rq_bad; exact D].
Qed.
(** finding: a quotient that overwrites the divisor is rounded against itself, in particular it is truncated whenever it is large *)
Theorem C81_div_int_over_divisor_refuted h de dv n d : nth_error h de = Some n -> nth_error h dv = Some d -> d <> 0 ->
  2 * Z.abs (Z.rem n d) < Z.abs (Z.quot n d) - 1 ->
  div_bigint h de dv (Some dv) = Done (None, Some dv, store h dv (Z.quot n d)).
Proof. apply div_bigint_alias. Qed.
Example C81_truncated :
  div_bigint [199; 10] 0%nat 1%nat (Some 1%nat) = Done (None, Some 1%nat, [199; 19]) /\ rounds_to 199 10 20 /\
  div_bigint [199; 10] 0%nat 1%nat (Some 0%nat) = Done (None, Some 0%nat, [20; 10]) /\
  div_bigint [7; 2] 0%nat 1%nat (Some 1%nat) = Done (None, Some 1%nat, [7; 3]) /\ rounds_to 7 2 4.
Proof. vm_compute. intuition (try discriminate; try reflexivity). Qed.
(** division by zero is an error, for integers and fractions; only a nil quotient is touched *)
Theorem C81_div_zero h h' de dv qa : nth_error h dv = Some 0 -> nth_error h' dv = Some 0%Q ->
  div_bigint h de dv (Some qa) = Done (Some DivByZeroErr, Some qa, h) /\ div_bigrat h' de dv (Some qa) = Done (Some DivByZeroErr, Some qa, h').
Proof. intros E1 E2. unfold div_bigint, div_bigrat, load. rewrite E1, E2. split; reflexivity. Qed.
(** big.Rat: the exact quotient, whatever objects coincide *)
Theorem C81_div_rat h de dv qa n d : nth_error h de = Some n -> nth_error h dv = Some d -> (qa < length h)%nat -> ~ (d == 0)%Q ->
  exists r, div_bigrat h de dv (Some qa) = Done (None, Some qa, store h qa r) /\ (r == n / d)%Q.
Proof. apply div_rat_any. Qed.
(** big.Float: never a panic; the error is reserved for 0/0 and Inf/Inf; the quotient of finite numbers is the nearest number
    of the precision of the quotient object *)
Theorem C81_div_float_no_panic h de dv qa n d z : nth_error h de = Some n -> nth_error h dv = Some d -> nth_error h qa = Some z ->
  (exists x, div_bigfloat h de dv (Some qa) = Done (None, Some qa, store h qa x)) \/ div_bigfloat h de dv (Some qa) = Done (Some err_nan, Some qa, h).
Proof. apply div_float_total. Qed.
(** The precision [p] is that of the quotient object, or the larger one of the operands if the quotient object has none. *)
Theorem C81_div_float (h : list bfloat) de dv qa (n d z : bfloat) p qn qd : nth_error h de = Some n -> nth_error h dv = Some d -> nth_error h qa = Some z ->
  (fst z <> 0 -> p = fst z) -> (fst z = 0 -> p = Z.max (fst n) (fst d)) -> 1 <= p -> bf_denotes n qn -> bf_denotes d qd -> ~ (qd == 0)%Q ->
  exists r q, div_bigfloat h de dv (Some qa) = Done (None, Some qa, store h qa (p, r)) /\ denotes r q /\ nearest_short 2 p (qn / qd) q.
Proof.
  intros E1 E2 E3 P1 P2 Hp Dn Dd N. assert (EP : p = res_prec z n d) by (unfold res_prec; destruct (Z.eqb_spec (fst z) 0); auto). subst p.
  unfold div_bigfloat. rewrite (load_some _ _ _ E1), (load_some _ _ _ E2), (load_some _ _ _ E3). cbn [obind].
  assert (B2 : bf_sign d =? 0 = false) by (destruct (bf_sign d =? 0) eqn:B; [exfalso; apply N, (bf_sign_zero d qd Dd); exact B|reflexivity]).
  assert (I2 : is_inf (snd d) = false) by (unfold bf_denotes in Dd; destruct (snd d); cbn in *; tauto).
  rewrite B2, I2, !andb_false_r. cbn [orb].
  destruct (bf_quo_finite z n d qn qd Hp Dn Dd N) as (r & q & E & D & Ns & _). rewrite E. cbn [obind]. exists r, q. auto.
Qed.
Theorem C81_div_float_nan h de dv qa n d z : nth_error h de = Some n -> nth_error h dv = Some d -> nth_error h qa = Some z ->
  (div_bigfloat h de dv (Some qa) = Done (Some err_nan, Some qa, h) <->
    (fzero (snd n) = true /\ fzero (snd d) = true) \/ (is_inf (snd n) = true /\ is_inf (snd d) = true)).
Proof.
  intros E1 E2 E3. unfold div_bigfloat. rewrite (load_some _ _ _ E1), (load_some _ _ _ E2), (load_some _ _ _ E3). cbn [obind].
  assert (S0 : forall x : bfloat, (bf_sign x =? 0) = fzero (snd x)) by (intros x; unfold bf_sign; destruct (fzero (snd x)); [reflexivity|]; destruct (fneg (snd x)); reflexivity).
  rewrite !S0. match goal with |- context [if ?c then _ else _] => destruct c eqn:C end.
  - split; [intros _|reflexivity]. apply orb_true_iff in C. rewrite !andb_true_iff in C. exact C.
  - split; [|intros H; apply orb_false_iff in C; rewrite !andb_false_iff in C; intuition congruence].
    destruct (bf_quo z n d); cbn; discriminate.
Qed.

(** ** C82. AbsBigOps *)
(** The pointers come out as they went in, and the objects they lead to are overwritten with their absolute values; all other
    objects keep their contents. *)
Theorem C82_abs {St V} (o : bigops V) (nx : stepfn St (option addr)) s h ps vs e :
  (forall v, b_abs o (b_abs o v) = b_abs o v) -> yields nx s ps e -> points h ps vs ->
  exists s' h', emits (next (st_abs_big o (hands nx))) (ofIter (s, h)) ps (ofIter (s', h')) /\
    stuck (next (st_abs_big o (hands nx))) (ofIter (s', h')) e /\
    forall a, nth_error h' a =
      (if existsb (fun p => match p with Some b => Nat.eqb a b | None => false end) ps then option_map (b_abs o) (nth_error h a) else nth_error h a).
Proof.
  intros Id (s1 & Em & St1) P. destruct (stuck_fails _ _ _ St1) as (s2 & Fa & _).
  exists s1, (fold_left (abs_at o) ps h). split; [eapply abs_emits; eauto|]. split.
  - eapply ofIter_stuck. apply abs_fails. exact Fa.
  - intros a. eapply abs_heap; eauto.
Qed.
Theorem C82_abs_values : (forall z, b_abs ops_int z = Z.abs z) /\ (forall q, (b_abs ops_rat q == Qabs.Qabs q)%Q) /\
  (forall p b m e, b_abs ops_float (p, Fin b m e) = (p, Fin false m e)) /\ (forall p b, b_abs ops_float (p, Inf b) = (p, Inf false)) /\
  (forall z, b_abs ops_int (b_abs ops_int z) = b_abs ops_int z) /\ (forall q, b_abs ops_rat (b_abs ops_rat q) = b_abs ops_rat q) /\
  (forall x, b_abs ops_float (b_abs ops_float x) = b_abs ops_float x).
Proof.
  split; [reflexivity|]. split; [intros [n d]; reflexivity|]. split; [reflexivity|]. split; [reflexivity|]. split; [intros z; cbn; lia|].
  split; [intros [n d]; cbn; rewrite Z.abs_involutive; reflexivity|]. intros [p [|b|b m e]]; reflexivity.
Qed.
(** finding: the caller's numbers are changed *)
Example C82_abs_in_place_refuted : exists s', emits (next (st_abs_big ops_int (hands (slice_gen [Some 0%nat; Some 1%nat])))) (ofIter (0%nat, [-5; 3; -7]))
    [Some 0%nat; Some 1%nat] (ofIter (s', [5; 3; -7])).
Proof.
  exists 2%nat. assert (Em : emits (slice_gen [Some 0%nat; Some 1%nat]) 0%nat [Some 0%nat; Some 1%nat] 2%nat).
  { econstructor; [exists O; intros; reflexivity|]. econstructor; [exists O; intros; reflexivity|]. constructor. }
  exact (abs_emits ops_int _ _ _ _ [-5; 3; -7] [-5; 3] Em ltac:(repeat constructor; eexists; split; reflexivity)).
Qed.

(** ** C83. SumBigOps *)
(** Nothing in, nothing out; an error comes through. *)
Theorem C83_empty {St V} (o : bigops V) (nx : stepfn St (option addr)) s h e : yields nx s [] e -> yields (sum_of o nx h) (sum_start o s h) [] e.
Proof. apply sum_empty. Qed.
(** One pointer: that very pointer. *)
Theorem C83_one {St V} (o : bigops V) (nx : stepfn St (option addr)) s h p : yields nx s [p] EOI ->
  exists s' h', emits (sum_of o nx h) (sum_start o s h) [p] (ofIter (true, (s', h'))) /\ kept h h' /\ stuck (sum_of o nx h) (ofIter (true, (s', h'))) EOI.
Proof.
  intros Y. destruct (sum_one o nx s p h Y) as (s' & E). exists s', (h ++ [b_int o 0]). split; [exact E|]. split; [apply kept_app|apply sum_done].
Qed.
(** Several: a pointer to a new object; the caller's objects keep their contents. *)
Theorem C83_int {St} (nx : stepfn St (option addr)) s h p0 p1 ps v0 v1 vs : yields nx s (p0 :: p1 :: ps) EOI -> points h (p0 :: p1 :: ps) (v0 :: v1 :: vs) ->
  exists s', emits (sum_of ops_int nx h) (sum_start ops_int s h) [Some (length h)] (ofIter (true, (s', h ++ [zsum (v0 :: v1 :: vs)]))) /\
    stuck (sum_of ops_int nx h) (ofIter (true, (s', h ++ [zsum (v0 :: v1 :: vs)]))) EOI.
Proof.
  intros Y P. destruct (sum_many ops_int nx s p0 p1 ps h v0 v1 vs (zsum (v0 :: v1 :: vs)) Y P) as (s' & E).
  { cbn [ops_int b_add b_int obind]. rewrite vfold_int. f_equal. unfold zsum. cbn [fold_right]. lia. }
  exists s'. split; [exact E|apply sum_done].
Qed.
Theorem C83_rat {St} (nx : stepfn St (option addr)) s h p0 p1 ps v0 v1 vs : yields nx s (p0 :: p1 :: ps) EOI -> points h (p0 :: p1 :: ps) (v0 :: v1 :: vs) ->
  exists s' r, emits (sum_of ops_rat nx h) (sum_start ops_rat s h) [Some (length h)] (ofIter (true, (s', h ++ [r]))) /\ (r == qsum (v0 :: v1 :: vs))%Q /\
    stuck (sum_of ops_rat nx h) (ofIter (true, (s', h ++ [r]))) EOI.
Proof.
  intros Y P. destruct (vfold_rat vs (Qred (v0 + v1))) as (r & F & R). destruct (sum_many ops_rat nx s p0 p1 ps h v0 v1 vs r Y P F) as (s' & E).
  exists s', r. split; [exact E|]. split; [|apply sum_done]. rewrite R. pose proof (Qred_correct (v0 + v1)) as Q. rewrite Q. unfold qsum. cbn [fold_right]. ring.
Qed.
(** big.Float, finding: every partial sum is rounded to four bits. *)
Theorem C83_float_four_bits {St} (nx : stepfn St (option addr)) s h p0 p1 ps v0 v1 vs q0 q1 qs : yields nx s (p0 :: p1 :: ps) EOI ->
  points h (p0 :: p1 :: ps) (v0 :: v1 :: vs) -> Forall2 bf_denotes (v0 :: v1 :: vs) (q0 :: q1 :: qs) ->
  exists s' r x, emits (sum_of ops_float nx h) (sum_start ops_float s h) [Some (length h)] (ofIter (true, (s', h ++ [(4, r)]))) /\ denotes r x /\
    rounded_sum 4 q0 (q1 :: qs) x /\ stuck (sum_of ops_float nx h) (ofIter (true, (s', h ++ [(4, r)]))) EOI.
Proof.
  intros Y P D. inversion D as [|? ? ? ? D0 D']; subst. inversion D' as [|? ? ? ? D1 D2]; subst.
  destruct (bf_add_finite (bf_int 0) v0 v1 q0 q1) as (r1 & x1 & E1 & Dr1 & N1 & _); [rewrite bf_zero; cbn; lia|exact D0|exact D1|].
  rewrite bf_zero in E1, N1. rewrite res_prec4 in E1, N1. destruct (vfold_float vs r1 x1 qs Dr1 D2) as (r & x & F & Dr & R).
  destruct (sum_many ops_float nx s p0 p1 ps h v0 v1 vs (4, r) Y P) as (s' & E).
  { cbn [ops_float b_add b_int]. rewrite bf_zero, E1. cbn [obind]. exact F. }
  exists s', r, x. split; [exact E|]. split; [exact Dr|]. split; [econstructor; eauto|apply sum_done].
Qed.
(** the sum of 100 and 1, both of 53 bits, comes out as 104 *)
Example C83_float_refuted : exists s' r, emits (sum_of ops_float (slice_gen [Some 0%nat; Some 1%nat]) [(53, Fin false 100 0); (53, Fin false 1 0)])
    (sum_start ops_float 0%nat [(53, Fin false 100 0); (53, Fin false 1 0)]) [Some 2%nat]
    (ofIter (true, (s', [(53, Fin false 100 0); (53, Fin false 1 0); (4, r)]))) /\ denotes r (inject_Z 104).
Proof.
  assert (Y : yields (slice_gen [Some 0%nat; Some 1%nat]) 0%nat [Some 0%nat; Some 1%nat] EOI).
  { exists 2%nat. split; [econstructor; [exists O; intros; reflexivity|]; econstructor; [exists O; intros; reflexivity|]; constructor|].
    apply stuck_fixed. exists O. intros. reflexivity. }
  destruct (sum_many ops_float (slice_gen [Some 0%nat; Some 1%nat]) 0%nat (Some 0%nat) (Some 1%nat) [] [(53, Fin false 100 0); (53, Fin false 1 0)]
    (53, Fin false 100 0) (53, Fin false 1 0) [] (4, Fin false 13 3) Y ltac:(repeat constructor; eexists; split; reflexivity) ltac:(vm_compute; reflexivity)) as (s' & E).
  exists s', (Fin false 13 3). split; [exact E|]. vm_compute. reflexivity.
Qed.
(** finding: infinities of opposite signs panic *)
Theorem C83_float_panics {St} (nx : stepfn St (option addr)) s h p0 p1 ps b z0 z1 vs : yields nx s (p0 :: p1 :: ps) EOI ->
  points h (p0 :: p1 :: ps) ((z0, Inf b) :: (z1, Inf (negb b)) :: vs) -> panics (sum_of ops_float nx h) (sum_start ops_float s h).
Proof. intros Y P. eapply sum_panics; eauto. cbn [ops_float b_add b_int]. unfold bf_add. cbn [snd]. destruct b; reflexivity. Qed.
(** An error of the source replaces the sum. *)
Theorem C83_error {St} (nx : stepfn St (option addr)) s h p0 ps v0 vs e : yields nx s (p0 :: ps) e -> e <> EOI -> points h (p0 :: ps) (v0 :: vs) ->
  yields (sum_of ops_int nx h) (sum_start ops_int s h) [] e.
Proof.
  intros Y Ne P. destruct vs as [|v1 vs].
  - apply (sum_error ops_int nx s p0 ps h v0 [] 0 0 e Y Ne P). congruence.
  - apply (sum_error ops_int nx s p0 ps h v0 (v1 :: vs) 0 (v0 + v1 + zsum vs) e Y Ne P). intros _. cbn [hd tl ops_int b_add b_int obind]. apply vfold_int.
Qed.
Theorem C83_error_rat {St} (nx : stepfn St (option addr)) s h p0 ps v0 vs e : yields nx s (p0 :: ps) e -> e <> EOI -> points h (p0 :: ps) (v0 :: vs) ->
  yields (sum_of ops_rat nx h) (sum_start ops_rat s h) [] e.
Proof.
  intros Y Ne P. destruct vs as [|v1 vs].
  - apply (sum_error ops_rat nx s p0 ps h v0 [] 0%Q 0%Q e Y Ne P). congruence.
  - destruct (vfold_rat vs (Qred (v0 + v1))) as (r & F & _).
    apply (sum_error ops_rat nx s p0 ps h v0 (v1 :: vs) 0%Q r e Y Ne P). intros _. cbn [hd tl ops_rat b_add b_int obind]. exact F.
Qed.

(** ** C84. AvgBigOps *)
Theorem C84_empty {St} (nx : stepfn St (option addr)) s e : yields nx s [] e ->
  (forall h, yields (avg_of ops_int nx) (ofIter (s, h)) [] e) /\ (forall h, yields (avg_of ops_rat nx) (ofIter (s, h)) [] e) /\
  (forall h, yields (avg_of ops_float nx) (ofIter (s, h)) [] e).
Proof. intros Y. split; [|split]; intros h; eapply avg_err; eauto; try constructor; try reflexivity. Qed.
(** big.Int: the rounded mean (with the sign defect of Div), in a new object; the caller's objects keep their contents. *)
Theorem C84_int {St} (nx : stepfn St (option addr)) s h ps vs : yields nx s ps EOI -> points h ps vs -> ps <> [] ->
  exists a q s' h', emits (avg_of ops_int nx) (ofIter (s, h)) [Some a] (ofIter (s', h')) /\ stuck (avg_of ops_int nx) (ofIter (s', h')) EOI /\
    kept h h' /\ (length h <= a)%nat /\ nth_error h' a = Some q /\
    (~ bad_div (zsum vs) (Z.of_nat (length vs)) -> rounds_to (zsum vs) (Z.of_nat (length vs)) q) /\ (bad_div (zsum vs) (Z.of_nat (length vs)) -> q = 1).
Proof.
  intros Y P Ne. assert (Lv : length vs <> O) by (rewrite <- (points_pair _ _ _ P); destruct ps; [congruence|discriminate]).
  pose proof (afold_int vs 0 0) as F. set (x := zsum vs) in *. set (c := Z.of_nat (length vs)) in *. assert (C : c <> 0) by (unfold c; lia).
  rewrite !Z.add_0_l in F. destruct (nth3 h x c 1) as (N1 & N2 & _).
  pose proof (div_bigint_nil (h ++ [x; c; 1]) (length h) (S (length h)) x c N1 N2 C) as D.
  destruct (avg_ok ops_int nx s ps h vs x c _ _ _ Y P F ltac:(cbn [ops_int b_sign]; lia) D) as (s' & E & St').
  exists (length (h ++ [x; c; 1])), (rq x c), s', ((h ++ [x; c; 1]) ++ [rq x c]).
  split; [exact E|]. split.
  { apply yields_nil_inv. eapply avg_err; [exists s'; split; [constructor|exact St']|constructor|reflexivity|reflexivity]. }
  split; [eapply kept_trans; apply kept_app|]. split; [rewrite app_length; lia|]. split; [apply nth_app_len|].
  split; [apply rq_rounds; exact C|apply rq_bad; exact C].
Qed.
(** An error of the source replaces the mean. *)
Theorem C84_error {St} (nx : stepfn St (option addr)) s ps e : yields nx s ps e -> e <> EOI ->
  (forall h vs, points h ps vs -> yields (avg_of ops_int nx) (ofIter (s, h)) [] e) /\
  (forall h vs, points h ps vs -> yields (avg_of ops_rat nx) (ofIter (s, h)) [] e) /\
  (forall h vs qs, points h ps vs -> Forall2 bf_denotes vs qs -> yields (avg_of ops_float nx) (ofIter (s, h)) [] e).
Proof.
  intros Y Ne. split; [|split].
  - intros h vs P. eapply avg_err; [exact Y|exact P|apply afold_int|congruence].
  - intros h vs P. destruct (afold_rat vs (b_int ops_rat 0) (b_int ops_rat 0)) as (x & c & F & _). eapply avg_err; [exact Y|exact P|exact F|congruence].
  - intros h vs qs P Dq. destruct (afold_float vs (Fin false 0 0) 0%Q qs (bf_int 0) 0 ltac:(vm_compute; reflexivity) Dq eq_refl) as (r1 & x & c & F & _).
    rewrite <- bf_zero in F. eapply avg_err; [exact Y|exact P|exact F|congruence].
Qed.
(** big.Rat: the exact mean *)
Theorem C84_rat {St} (nx : stepfn St (option addr)) s h ps vs : yields nx s ps EOI -> points h ps vs -> ps <> [] ->
  exists a q s' h', emits (avg_of ops_rat nx) (ofIter (s, h)) [Some a] (ofIter (s', h')) /\ stuck (avg_of ops_rat nx) (ofIter (s', h')) EOI /\
    kept h h' /\ (length h <= a)%nat /\ nth_error h' a = Some q /\ (q == qsum vs / inject_Z (Z.of_nat (length vs)))%Q.
Proof.
  intros Y P Ne. assert (Lv : length vs <> O) by (rewrite <- (points_pair _ _ _ P); destruct ps; [congruence|discriminate]).
  destruct (afold_rat vs (b_int ops_rat 0) (b_int ops_rat 0)) as (x & c & F & X & C). set (one := b_int ops_rat 1).
  assert (X' : (x == qsum vs)%Q) by (rewrite X; cbn; unfold ConvFloat.int_to_bigrat; ring).
  assert (C' : (c == inject_Z (Z.of_nat (length vs)))%Q) by (rewrite C; cbn [ops_rat b_int]; unfold ConvFloat.int_to_bigrat; change (inject_Z 0) with 0%Q; ring).
  assert (C0 : ~ (c == 0)%Q) by (rewrite C'; unfold Qeq; cbn; lia).
  destruct (nth3 h x c one) as (N1 & N2 & _).
  destruct (div_rat_nil (h ++ [x; c; one]) (length h) (S (length h)) x c N1 N2 C0) as (q & D & Q).
  assert (Sg : b_sign ops_rat c <> 0) by (cbn [ops_rat b_sign]; intros Z0; apply C0; unfold Qeq; cbn; lia).
  destruct (avg_ok ops_rat nx s ps h vs x c _ _ _ Y P F Sg D) as (s' & E & St').
  exists (length (h ++ [x; c; one])), q, s', ((h ++ [x; c; one]) ++ [q]). split; [exact E|]. split.
  { apply yields_nil_inv. eapply avg_err; [exists s'; split; [constructor|exact St']|constructor|reflexivity|reflexivity]. }
  split; [eapply kept_trans; apply kept_app|]. split; [rewrite app_length; lia|]. split; [apply nth_app_len|]. rewrite Q, X', C'. reflexivity.
Qed.
(** big.Float, finding: the sum is rounded to four bits after every addition and the number of elements is counted up to 16 only. *)
Theorem C84_float_wrong {St} (nx : stepfn St (option addr)) s h ps vs qs : yields nx s ps EOI -> points h ps vs -> ps <> [] -> Forall2 bf_denotes vs qs ->
  exists a r q x s' h', emits (avg_of ops_float nx) (ofIter (s, h)) [Some a] (ofIter (s', h')) /\ stuck (avg_of ops_float nx) (ofIter (s', h')) EOI /\
    kept h h' /\ (length h <= a)%nat /\ nth_error h' a = Some (53, r) /\ denotes r q /\
    rounded_sum 4 0 qs x /\ nearest_short 2 53 (x / inject_Z (Z.of_nat (Nat.min (length vs) 16))) q.
Proof.
  intros Y P Ne Dq. assert (Lv : length vs <> O) by (rewrite <- (points_pair _ _ _ P); destruct ps; [congruence|discriminate]).
  destruct (afold_float vs (Fin false 0 0) 0%Q qs (bf_int 0) 0 ltac:(vm_compute; reflexivity) Dq eq_refl) as (r1 & x & c & F & C & Dx & R).
  rewrite <- bf_zero in F. set (one := b_int ops_float 1). cbn [Nat.add] in C. destruct (count_spec (length vs)) as (rc & C' & Dc).
  rewrite C' in C. injection C as <-.
  assert (C0 : ~ (inject_Z (Z.of_nat (Nat.min (length vs) 16)) == 0)%Q) by (unfold Qeq; cbn; lia).
  destruct (nth3 h (4, r1) (4, rc) one) as (N1 & N2 & _).
  destruct (div_float_nil (h ++ [(4, r1); (4, rc); one]) (length h) (S (length h)) (4, r1) (4, rc) x (inject_Z (Z.of_nat (Nat.min (length vs) 16))) N1 N2 Dx Dc C0)
    as (r & q & D & Dr & Nr).
  assert (Sg : b_sign ops_float (4, rc) <> 0) by (cbn [ops_float b_sign]; intros Z0; apply C0; apply (bf_sign_zero (4, rc)); [exact Dc|]; rewrite Z0; reflexivity).
  destruct (avg_ok ops_float nx s ps h vs (4, r1) (4, rc) _ _ _ Y P F Sg D) as (s' & E & St').
  exists (length (h ++ [(4, r1); (4, rc); one])), r, q, x, s', ((h ++ [(4, r1); (4, rc); one]) ++ [(53, r)]). split; [exact E|]. split.
  { apply yields_nil_inv. eapply avg_err; [exists s'; split; [constructor|exact St']|constructor|reflexivity|reflexivity]. }
  split; [eapply kept_trans; apply kept_app|]. split; [rewrite app_length; lia|]. split; [apply nth_app_len|]. auto.
Qed.
Example C84_nonvacuous : points [(53, Fin false 100 0); (53, Fin false 1 0)] [Some 0%nat; Some 1%nat; Some 1%nat]
    [(53, Fin false 100 0); (53, Fin false 1 0); (53, Fin false 1 0)] /\
  afold ops_float (bf_int 0) (bf_int 0) (repeat (53, Fin false 1 0) 40) = Done ((4, Fin false 8 1), (4, Fin false 8 1)).
Proof. split; [repeat constructor; eexists; split; reflexivity|vm_compute; reflexivity]. Qed.
