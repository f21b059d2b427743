(** Sums and averages of big numbers: what the additions amount to. *)
From Coq Require Import ZArith List QArith Qabs Lqa Lia Bool.
From Verif Require Import Base Iter IterSpec IterProofs GoInt MathInt MathIntSpec MathIntProofs StreamSpec Float FloatSpec FloatProofs FloatProofs2
  ConvFloat ConvFloatSpec ConvFloatProofs3 Big BigSpec BigProofs.
Close Scope Q_scope.
Open Scope Z_scope.
Open Scope go_scope.

(** ** big.Int *)
Lemma vfold_int vs : forall acc, vfold ops_int acc vs = Done (acc + zsum vs).
Proof. induction vs as [|v vs IH]; intros acc; cbn; [f_equal; lia|]. rewrite IH. f_equal. unfold zsum. cbn [fold_right]. lia. Qed.
Lemma afold_int vs : forall s c, afold ops_int s c vs = Done (s + zsum vs, c + Z.of_nat (length vs)).
Proof.
  induction vs as [|v vs IH]; intros s c; cbn [afold]; [cbn; f_equal; f_equal; lia|]. cbn [ops_int b_add obind]. rewrite IH.
  f_equal. unfold zsum. cbn [fold_right length]. unfold b_int, ops_int, int_to_bigint. f_equal; lia.
Qed.

(** ** big.Rat *)
Lemma vfold_rat vs : forall acc, exists r, vfold ops_rat acc vs = Done r /\ (r == acc + qsum vs)%Q.
Proof.
  induction vs as [|v vs IH]; intros acc; cbn [vfold]; [exists acc; split; [reflexivity|unfold qsum; cbn; ring]|]. cbn [ops_rat b_add obind].
  destruct (IH (Qred (acc + v))) as (r & E & R). exists r. split; [exact E|]. rewrite R. pose proof (Qred_correct (acc + v)) as Q. rewrite Q.
  unfold qsum. cbn [fold_right]. ring.
Qed.
Lemma afold_rat vs : forall s c, exists s' c', afold ops_rat s c vs = Done (s', c') /\ (s' == s + qsum vs)%Q /\
  (c' == c + inject_Z (Z.of_nat (length vs)))%Q.
Proof.
  induction vs as [|v vs IH]; intros s c; cbn [afold].
  - exists s, c. split; [reflexivity|]. split; [unfold qsum; cbn; ring|]. change (inject_Z (Z.of_nat (length (@nil Q)))) with 0%Q. ring.
  - cbn [ops_rat b_add obind]. destruct (IH (Qred (s + v)) (Qred (c + b_int ops_rat 1))) as (s' & c' & E & R1 & R2). exists s', c'.
    split; [exact E|]. split.
    + rewrite R1. pose proof (Qred_correct (s + v)) as Q. rewrite Q. unfold qsum. cbn [fold_right]. ring.
    + rewrite R2. pose proof (Qred_correct (c + b_int ops_rat 1)) as Q. rewrite Q. cbn [length]. rewrite Nat2Z.inj_succ. unfold Z.succ.
      rewrite inject_Z_plus. cbn [ops_rat b_int]. unfold int_to_bigrat. ring.
Qed.

(** ** big.Float *)
Lemma bf_zero : bf_int 0 = (4, Fin false 0 0).
Proof. vm_compute. reflexivity. Qed.
Lemma res_prec4 u x y : res_prec (4, u) x y = 4.
Proof. reflexivity. Qed.
Lemma vfold_float vs : forall u q qs, denotes u q -> Forall2 bf_denotes vs qs ->
  exists r x, vfold ops_float (4, u) vs = Done (4, r) /\ denotes r x /\ rounded_sum 4 q qs x.
Proof.
  induction vs as [|v vs IH]; intros u q qs D P; inversion P as [|? qv ? qs' Dv P']; subst.
  - exists u, q. split; [reflexivity|]. split; [exact D|]. constructor. reflexivity.
  - destruct (bf_add_finite (4, u) (4, u) v q qv ltac:(rewrite res_prec4; lia) D Dv) as (r1 & q1 & E1 & D1 & N1 & _). rewrite res_prec4 in E1, N1.
    destruct (IH r1 q1 qs' D1 P') as (r & x & E & Dr & R). exists r, x. cbn [vfold ops_float b_add]. rewrite E1. cbn [obind].
    split; [exact E|]. split; [exact Dr|]. econstructor; eauto.
Qed.

(** the counter of AvgBigOps: it stops at sixteen *)
Fixpoint count_n (n : nat) : outcome bfloat :=
  match n with O => Done (bf_int 0) | S n' => let! c := count_n n' in bf_add c c (bf_int 1) end.
Definition cval (n : nat) : bfloat := match count_n n with Done c => c | _ => bf_int 0 end.
Lemma count_le n : (n <= 16)%nat -> exists r, count_n n = Done (4, r) /\ denotes r (inject_Z (Z.of_nat n)).
Proof.
  intros L. do 17 (destruct n as [|n]; [eexists; split; [vm_compute; reflexivity|vm_compute; reflexivity]|]). lia.
Qed.
Lemma count_stays : bf_add (cval 16) (cval 16) (bf_int 1) = Done (cval 16).
Proof. vm_compute. reflexivity. Qed.
Lemma count_16 n : (16 <= n)%nat -> count_n n = Done (cval 16).
Proof.
  induction n as [|n IH]; intros L; [lia|]. destruct (Nat.eq_dec n 15) as [->|N]; [vm_compute; reflexivity|].
  cbn [count_n]. rewrite IH by lia. cbn [obind]. apply count_stays.
Qed.
Lemma count_spec n : exists r, count_n n = Done (4, r) /\ denotes r (inject_Z (Z.of_nat (Nat.min n 16))).
Proof.
  destruct (Nat.le_gt_cases n 16) as [L|L]; [rewrite Nat.min_l by lia; apply count_le; exact L|].
  rewrite Nat.min_r by lia. rewrite count_16 by lia. destruct (count_le 16 (le_n _)) as (r & E & D). exists r. split; [|exact D].
  rewrite <- E. unfold cval. rewrite E. reflexivity.
Qed.
Lemma afold_float vs : forall u q qs c n, denotes u q -> Forall2 bf_denotes vs qs -> count_n n = Done c ->
  exists r x c', afold ops_float (4, u) c vs = Done ((4, r), c') /\ count_n (n + length vs) = Done c' /\ denotes r x /\ rounded_sum 4 q qs x.
Proof.
  induction vs as [|v vs IH]; intros u q qs c n D P C; inversion P as [|? qv ? qs' Dv P']; subst.
  - exists u, q, c. rewrite Nat.add_0_r. split; [reflexivity|]. split; [exact C|]. split; [exact D|]. constructor. reflexivity.
  - destruct (bf_add_finite (4, u) (4, u) v q qv ltac:(rewrite res_prec4; lia) D Dv) as (r1 & q1 & E1 & D1 & N1 & _). rewrite res_prec4 in E1, N1.
    destruct (count_spec (S n)) as (rc & Ec & _). pose proof Ec as Ec'. cbn [count_n] in Ec'. rewrite C in Ec'. cbn [obind] in Ec'.
    destruct (IH r1 q1 qs' _ (S n) D1 P' Ec) as (r & x & c' & E & C' & Dr & R). exists r, x, c'. cbn [afold ops_float b_add b_int]. rewrite E1. cbn [obind].
    rewrite Ec'. cbn [obind]. split; [exact E|]. split; [replace (n + length (v :: vs))%nat with (S n + length vs)%nat by (cbn; lia); exact C'|].
    split; [exact Dr|]. econstructor; eauto.
Qed.

Lemma bf_quo_finite z x y qx qy : 1 <= res_prec z x y -> bf_denotes x qx -> bf_denotes y qy -> ~ (qy == 0)%Q ->
  exists r q, bf_quo z x y = Done (res_prec z x y, r) /\ denotes r q /\ nearest_short 2 (res_prec z x y) (qx / qy) q /\ nonneg_mantissa r.
Proof.
  intros Hp Dx Dy Ny. set (p := res_prec z x y) in *. unfold bf_quo. fold p. unfold bf_denotes in *.
  pose proof (fzero_iff _ _ Dx) as Zx. pose proof (fzero_iff _ _ Dy) as Zy.
  pose proof (denotes_value _ _ Dx) as Vx. pose proof (denotes_value _ _ Dy) as Vy.
  assert (Zy' : fzero (snd y) = false) by (destruct (fzero (snd y)); [exfalso; apply Ny, Zy; reflexivity|reflexivity]).
  destruct (snd x) as [|bx|bx mx ex] eqn:Ex; cbn in Dx; try contradiction.
  destruct (snd y) as [|by_|by_ my ey] eqn:Ey; cbn in Dy; try contradiction.
  rewrite Zy'. destruct (fzero (Fin bx mx ex)) eqn:F.
  - eexists; exists 0%Q. split; [reflexivity|]. split; [cbn; destruct (xorb _ _); symmetry; apply digits_0|]. split; [|cbn; lia].
    pose proof (proj1 Zx eq_refl) as Q0. split.
    + exists 0, 0. split; [apply Z.pow_pos_nonneg; lia|symmetry; apply digits_0].
    + intros w _. assert (E : (qx / qy - 0 == 0)%Q) by (rewrite Q0; field; exact Ny). rewrite E. change (Qabs 0) with 0%Q. apply Qabs_nonneg.
  - destruct (to_bits_nearest p (fvalue (Fin bx mx ex) / fvalue (Fin by_ my ey))%Q Hp) as (q & D & N & M). eexists; exists q. split; [reflexivity|].
    split; [exact D|]. split; [|exact M]. destruct N as [Sh N]. split; [exact Sh|]. intros w W. specialize (N w W). rewrite Vx, Vy in N. exact N.
Qed.

(** ** Div *)
Lemma div_rat_any h de dv qa n d : nth_error h de = Some n -> nth_error h dv = Some d -> (qa < length h)%nat -> ~ (d == 0)%Q ->
  exists r, div_bigrat h de dv (Some qa) = Done (None, Some qa, store h qa r) /\ (r == n / d)%Q.
Proof.
  intros E1 E2 L N. unfold div_bigrat. rewrite (load_some _ _ _ E2). cbn [obind].
  destruct (Z.sgn (Qnum d) =? 0) eqn:Z0; [exfalso; apply N; apply Z.eqb_eq in Z0; unfold Qeq; cbn; lia|].
  rewrite (load_some _ _ _ E1). cbn [obind]. exists (Qred (n / d)). split; [reflexivity|apply Qred_correct].
Qed.
Lemma div_rat_nil h de dv n d : nth_error h de = Some n -> nth_error h dv = Some d -> ~ (d == 0)%Q ->
  exists r, div_bigrat h de dv None = Done (None, Some (length h), h ++ [r]) /\ (r == n / d)%Q.
Proof.
  intros E1 E2 N. destruct (div_rat_any (h ++ [0%Q]) de dv (length h) n d) as (r & E & R).
  - rewrite nth_error_app1; [exact E1|eapply nth_lt; eauto].
  - rewrite nth_error_app1; [exact E2|eapply nth_lt; eauto].
  - rewrite app_length; cbn; lia.
  - exact N.
  - exists r. split; [|exact R]. rewrite store_last in E. exact E.
Qed.
Lemma bf_sign_zero x q : bf_denotes x q -> bf_sign x =? 0 = true <-> (q == 0)%Q.
Proof.
  intros D. unfold bf_denotes in D. pose proof (fzero_iff _ _ D) as Zx. unfold bf_sign. destruct (fzero (snd x)); [tauto|].
  destruct (fneg (snd x)); cbn; split; try discriminate; intros H; apply Zx in H; discriminate.
Qed.
Lemma div_float_nil h de dv n d qn qd : nth_error h de = Some n -> nth_error h dv = Some d -> bf_denotes n qn -> bf_denotes d qd -> ~ (qd == 0)%Q ->
  exists r q, div_bigfloat h de dv None = Done (None, Some (length h), h ++ [(53, r)]) /\ denotes r q /\ nearest_short 2 53 (qn / qd) q.
Proof.
  intros E1 E2 Dn Dd N. unfold div_bigfloat, alloc.
  rewrite (load_some _ _ n) by (rewrite nth_error_app1; [exact E1|eapply nth_lt; eauto]). cbn [obind].
  rewrite (load_some _ _ d) by (rewrite nth_error_app1; [exact E2|eapply nth_lt; eauto]). cbn [obind].
  assert (B2 : bf_sign d =? 0 = false) by (destruct (bf_sign d =? 0) eqn:B; [exfalso; apply N, (bf_sign_zero d qd Dd); exact B|reflexivity]).
  assert (I2 : is_inf (snd d) = false) by (unfold bf_denotes in Dd; destruct (snd d); cbn in *; tauto).
  rewrite B2, I2, !andb_false_r. cbn [orb]. rewrite (load_some _ _ _ (nth_app_len h _)). cbn [obind].
  destruct (bf_quo_finite (53, Fin false 0 0) n d qn qd ltac:(cbn; lia) Dn Dd N) as (r & q & E & D & Ns & _). rewrite E. cbn [obind].
  exists r, q. rewrite store_last. split; [reflexivity|]. split; [exact D|exact Ns].
Qed.
(** never a panic: the only cases in which Quo would panic are reported as an error *)
Lemma div_float_total h de dv qa n d z : nth_error h de = Some n -> nth_error h dv = Some d -> nth_error h qa = Some z ->
  (exists x, div_bigfloat h de dv (Some qa) = Done (None, Some qa, store h qa x)) \/ div_bigfloat h de dv (Some qa) = Done (Some err_nan, Some qa, h).
Proof.
  intros E1 E2 E3. unfold div_bigfloat. rewrite (load_some _ _ _ E1), (load_some _ _ _ E2), (load_some _ _ _ E3). cbn [obind].
  match goal with |- context [if ?c then _ else _] => destruct c eqn:C end; [right; reflexivity|left].
  apply orb_false_iff in C. destruct C as [C1 C2]. unfold bf_quo. unfold bf_sign in C1.
  destruct (snd n) as [|bn|bn mn en]; destruct (snd d) as [|bd|bd md ed]; cbn [is_inf andb] in C2; try discriminate; cbn [fzero] in *;
    repeat match goal with |- context [if ?c then _ else _] => destruct c eqn:?; cbn in *; try discriminate end;
    eexists; reflexivity.
Qed.

Section Avg.
  Context {St V : Type} (o : bigops V) (nx0 : stepfn St (option addr)).
  Notation nx := (@hands St V nx0).
  (** a source that ends with an error, or is empty *)
  Lemma avg_err s ps h vs x c e : yields nx0 s ps e -> points h ps vs -> afold o (b_int o 0) (b_int o 0) vs = Done (x, c) ->
    (e = EOI -> b_sign o c = 0) -> yields (next (st_avg_big o nx)) (ofIter (s, h)) [] e.
  Proof.
    intros (s1 & Em & St1) P F C. destruct (stuck_fails _ _ _ St1) as (s2 & Fa & _).
    pose proof (avg_fold o h ps vs (b_int o 0) (b_int o 0) P) as BF. rewrite F in BF.
    destruct (heap_loop_run nx0 (avg_body o h) (fun _ e h1 =>
         match e with
         | EOI =>
             let! c := load h1 (S (length h)) in
             if b_sign o c =? 0 then Done ((None, Some e), h1) else
             let! (x, h1) := b_div o h1 (length h) (S (length h)) None in
             Done ((snd x, None), h1)
         | _ => Done ((None, Some e), h1)
         end) _ _ _ _ _ _ _ _ _ (None, Some e) (h ++ [x; c; b_int o 1]) Em Fa BF) as [n1 H1].
    { destruct e; try reflexivity. destruct (nth3 h x c (b_int o 1)) as (N1 & N2 & N3). rewrite (load_some _ _ _ N2). cbn [obind].
      rewrite (C eq_refl). reflexivity. }
    eapply (ofIter_yields _ _ _ _ _ (s2, h ++ [x; c; b_int o 1])); [constructor|].
    exists None, (Nat.max n1 (S (length ps))). intros m L. unfold st_avg_big, alloc. rewrite !app_length. cbn [length].
    rewrite <- !app_assoc. cbn [app]. replace (length h + 1)%nat with (S (length h)) by lia. replace (S (length h) + 1)%nat with (S (S (length h))) by lia.
    pose proof (H1 m m ltac:(lia) ltac:(lia)) as Q. exact Q.
  Qed.
End Avg.
Lemma points_pair {V} (h : list V) ps vs : points h ps vs -> length ps = length vs.
Proof. intros P. induction P; cbn; auto. Qed.
