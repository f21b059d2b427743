(** C89: package math and the numeric reducers on float32 and float64.  C90: types declared by the user. *)
From Coq Require Import ZArith List QArith Qabs Lia ZifyBool Ascii String Permutation Setoid.
From Verif Require Import Base Iter IterSpec GoInt Conv ConvSpec Float FloatSpec FloatProofs2 ConvFloat ConvFloatSpec ConvFloatProofs ConvFloatProofs2 Big MathInt
  MathIntSpec Stream StreamSpec StreamProofs MathFloat MathFloatSpec MathFloatProofs.
Close Scope Q_scope.
Open Scope Z_scope.

(** ** C89 *)
(** Abs stores the absolute value and never returns an error. *)
Theorem C89_abs s x : is_float (fmt_of s) x -> exists y, abs_float s x = (None, y) /\ is_float (fmt_of s) y /\
  (x = NaN -> y = NaN) /\ (forall b, x = Inf b -> y = Inf false) /\
  (forall q, denotes x q -> denotes y (Qabs q) /\ sign_bit y = false).
Proof.
  intros F. destruct s; cbn [abs_float].
  - eexists. split; [reflexivity|]. destruct x as [|b|b m e].
    + split; [exact Logic.I|]. split; [reflexivity|]. split; [discriminate|]. intros q [].
    + split; [exact Logic.I|]. split; [discriminate|]. split; [reflexivity|]. intros q [].
    + set (x := Fin b m e) in *. assert (D : denotes x (fvalue x)) by (apply denotes_fvalue; exact Logic.I).
      assert (R32 : representable f32 (fvalue x)) by (exists x; auto).
      assert (R64 : representable f64 (fvalue x)).
      { change (0 <= m < 2 ^ 24 /\ -149 <= e <= 104) in F. exists x. split; [|exact D]. change (0 <= m < 2 ^ 53 /\ -1074 <= e <= 971). lia. }
      destruct (float_cast_ok S64 x (fvalue x) (is_float_nonneg _ _ F) D) as (A1 & B1 & _). specialize (B1 R64).
      assert (Sg : forall s y, nonneg_mantissa y -> finite y -> sign_bit (float_cast s y) = sign_bit y).
      { intros s0 y _ Fy. destruct y as [|c|c m' e']; try contradiction. unfold float_cast. destruct (frac m' e'). apply to_fmt_sign. }
      destruct (float_cast S64 x) as [|c|c m' e'] eqn:E1; try contradiction.
      pose proof (is_float_nonneg _ _ A1) as N1. cbn [fabs].
      assert (D2 : denotes (Fin false m' e') (Qabs (fvalue x))).
      { pose proof B1 as B2. cbn [denotes] in B2 |- *. rewrite B2. destruct c; [rewrite digits_opp, Qabs_opp|]; apply Qabs_pos;
          apply Qmult_le_0_compat; try (change 0%Q with (inject_Z 0); rewrite <- Zle_Qle; exact N1); apply Qlt_le_weak, (FloatProofs.P_pos 2 two_le). }
      destruct (float_cast_ok S32 (Fin false m' e') _ N1 D2) as (A3 & B3 & _).
      assert (R3 : representable f32 (Qabs (fvalue x))).
      { apply Qabs_case; intros _; [exact R32|]. apply representable_opp, R32; apply f32_ok. }
      split; [exact A3|]. split; [discriminate|]. split; [discriminate|]. intros q Dq. split.
      * eapply denotes_eq; [|exact (B3 R3)]. rewrite (denotes_unique x q (fvalue x) Dq D). reflexivity.
      * rewrite Sg; [reflexivity|exact N1|exact Logic.I].
  - exists (fabs x). split; [reflexivity|]. destruct x as [|b|b m e]; cbn [fabs].
    + split; [exact Logic.I|]. split; [reflexivity|]. split; [discriminate|]. intros q [].
    + split; [exact Logic.I|]. split; [discriminate|]. split; [reflexivity|]. intros q [].
    + split; [exact F|]. split; [discriminate|]. split; [discriminate|]. intros q Dq. split; [|reflexivity].
      pose proof (is_float_nonneg _ _ F) as N. cbn [denotes] in Dq |- *. rewrite Dq. destruct b; [rewrite digits_opp, Qabs_opp|]; apply Qabs_pos;
        apply Qmult_le_0_compat; try (change 0%Q with (inject_Z 0); rewrite <- Zle_Qle; exact N); apply Qlt_le_weak, (FloatProofs.P_pos 2 two_le).
Qed.

(** Div stores the floating point quotient and never returns an error, not even for a zero divisor. *)
Theorem C89_div s x y : is_float (fmt_of s) x -> is_float (fmt_of s) y ->
  exists z, div_float s x y = (None, z) /\ divided s x y z.
Proof. intros Fx Fy. eexists. split; [reflexivity|]. apply fdiv_ok; eapply is_float_nonneg; eassumption. Qed.

(** CmpOrdered on numbers and infinities is the numerical comparison. *)
Theorem C89_cmp x y a b : stands x a -> stands y b ->
  (cmp_float x y = -1 <-> ext_lt a b) /\ (cmp_float x y = 0 <-> ext_eq a b) /\ (cmp_float x y = 1 <-> ext_lt b a).
Proof.
  intros Hx Hy. pose proof (fltb_ok x y a b Hx Hy) as L1. pose proof (fltb_ok y x b a Hy Hx) as L2. unfold cmp_float, cmp_ordered.
  assert (X1 : ext_lt a b -> ~ ext_lt b a /\ ~ ext_eq a b).
  { destruct a as [|p|], b as [|q|]; cbn; try tauto. intros L. split; [apply Qle_not_lt, Qlt_le_weak, L|apply Qlt_not_eq, L]. }
  assert (X2 : ext_lt b a -> ~ ext_eq a b).
  { destruct a as [|p|], b as [|q|]; cbn; try tauto. intros L E. apply Qlt_not_eq in L. apply L. symmetry. exact E. }
  pose proof (ext_tri a b) as T.
  destruct (fltb x y), (fltb y x); intuition (try discriminate; try lia).
Qed.
(** Finding: NaN compares equal to everything, so that the relation "compares equal" is not transitive. *)
Theorem C89_cmp_nan_refuted x : cmp_float x NaN = 0 /\ cmp_float NaN x = 0.
Proof. destruct x; split; reflexivity. Qed.

(** MinOrdered and MaxOrdered return one of the arguments, the smaller or the larger one. *)
Theorem C89_min_max x y a b : stands x a -> stands y b ->
  (exists c, stands (min_float x y) c /\ (min_float x y = x \/ min_float x y = y) /\ ext_le c a /\ ext_le c b) /\
  (exists c, stands (max_float x y) c /\ (max_float x y = x \/ max_float x y = y) /\ ext_le a c /\ ext_le b c).
Proof.
  intros Hx Hy. pose proof (fltb_ok x y a b Hx Hy) as L1. pose proof (fltb_ok y x b a Hy Hx) as L2.
  pose proof (ext_not_lt a b) as N1. pose proof (ext_not_lt b a) as N2. unfold min_float, max_float, min_ordered, max_ordered. split.
  - destruct (fltb y x); [exists b|exists a]; (split; [assumption|]; split; [tauto|]; split; try apply ext_le_refl).
    + left. apply L2. reflexivity.
    + apply N2. intros H. apply L2 in H. discriminate.
  - destruct (fltb x y); [exists b|exists a]; (split; [assumption|]; split; [tauto|]; split; try apply ext_le_refl).
    + left. apply L1. reflexivity.
    + apply N1. intros H. apply L1 in H. discriminate.
Qed.
(** With a NaN they return the first argument, whichever it is. *)
Theorem C89_min_max_nan x y : x = NaN \/ y = NaN -> min_float x y = x /\ max_float x y = x.
Proof.
  intros H. unfold min_float, max_float, min_ordered, max_ordered.
  rewrite (proj1 (fltb_nan x y H)). rewrite (proj1 (fltb_nan y x ltac:(tauto))). auto.
Qed.

(** Range of floats that are not NaN: OfRange panics exactly when max <= min in the order of numbers and infinities, and SetValue
    accepts exactly the values between the bounds, a closed bound included. *)
Theorem C89_range min mm max xm init v a b c : stands min a -> stands max b -> stands v c ->
  (of_range fleb min mm max xm init = Panicked <-> ext_le b a) /\
  (~ ext_le b a -> of_range fleb min mm max xm init = Done (mkRange min mm max xm init)) /\
  ((if mm then ext_le a c else ext_lt a c) /\ (if xm then ext_le c b else ext_lt c b) ->
     set_value fltb fleb (mkRange min mm max xm init) v = (None, mkRange min mm max xm v)) /\
  (~ ((if mm then ext_le a c else ext_lt a c) /\ (if xm then ext_le c b else ext_lt c b)) ->
     set_value fltb fleb (mkRange min mm max xm init) v = (Some range_err, mkRange min mm max xm init)).
Proof.
  intros Ha Hb Hc. pose proof (fleb_ok max min b a Hb Ha) as L0.
  pose proof (fltb_ok min v a c Ha Hc) as L1. pose proof (fleb_ok min v a c Ha Hc) as L2.
  pose proof (fltb_ok v max c b Hc Hb) as L3. pose proof (fleb_ok v max c b Hc Hb) as L4. unfold of_range, set_value. cbn [r_min r_max r_minMode r_maxMode].
  split; [destruct (fleb max min); cbn; intuition discriminate|]. split; [destruct (fleb max min); cbn; intuition|].
  destruct mm, xm, (fltb min v), (fleb min v), (fltb v max), (fleb v max); cbn [negb andb orb]; intuition discriminate.
Qed.
(** With NaN:  A NaN bound is not refused, but then every SetValue is; SetValue(NaN)
    is always refused; the value stays. *)
Theorem C89_range_nan min mm max xm init v : min = NaN \/ max = NaN ->
  exists r, of_range fleb min mm max xm init = Done r /\ r_val r = init /\ set_value fltb fleb r v = (Some range_err, r).
Proof.
  intros H. unfold of_range. rewrite (proj2 (fltb_nan max min ltac:(tauto))). eexists. split; [reflexivity|]. split; [reflexivity|].
  unfold set_value. cbn [r_min r_max r_minMode r_maxMode]. destruct H as [->| ->].
  - destruct mm; reflexivity.
  - rewrite (proj1 (fltb_nan v NaN ltac:(tauto))), (proj2 (fltb_nan v NaN ltac:(tauto))).
    rewrite !Bool.andb_false_r. reflexivity.
Qed.
Theorem C89_set_value_nan r : set_value fltb fleb r NaN = (Some range_err, r).
Proof.
  unfold set_value. rewrite (proj1 (fltb_nan (r_min r) NaN ltac:(tauto))), (proj2 (fltb_nan (r_min r) NaN ltac:(tauto))).
  rewrite !Bool.andb_false_r. reflexivity.
Qed.

Section Streams.
  Context {St : Type} (nx : stepfn St float).
  Context {zf : Zero float}.

  (** Max and Min of a stream without NaN. *)
  Theorem C89_stream_max s x l : yields nx s (x :: l) EOI -> Forall (fun y => exists b, stands y b) (x :: l) ->
    exists m c, yields (next (st_max nx fltb)) (ofIter (false, s)) [m] EOI /\ In m (x :: l) /\ stands m c /\
      forall y b, In y (x :: l) -> stands y b -> ext_le b c.
  Proof.
    intros Y F. inversion F as [|? ? (a & Ha) F']; subst.
    destruct (pick_fold fltb ext_le) with (l := l) (x := x) (a := a) as (c & I & Hc & M); auto.
    - intros x0 y a0 b Hx Hy E. apply ext_not_lt. intros L. apply (fltb_ok x0 y a0 b Hx Hy) in L. congruence.
    - intros x0 y a0 b Hx Hy E. left. apply (fltb_ok x0 y a0 b Hx Hy). exact E.
    - exact ext_le_trans.
    - eexists _, c. split; [apply (reduce_noid nx _ s x l Y)|]. auto.
  Qed.
  Theorem C89_stream_min s x l : yields nx s (x :: l) EOI -> Forall (fun y => exists b, stands y b) (x :: l) ->
    exists m c, yields (next (st_min nx fltb)) (ofIter (false, s)) [m] EOI /\ In m (x :: l) /\ stands m c /\
      forall y b, In y (x :: l) -> stands y b -> ext_le c b.
  Proof.
    intros Y F. inversion F as [|? ? (a & Ha) F']; subst.
    destruct (pick_fold (fun u v => fltb v u) (fun u v => ext_le v u)) with (l := l) (x := x) (a := a) as (c & I & Hc & M); auto.
    - intros x0 y a0 b Hx Hy E. apply ext_not_lt. intros L. apply (fltb_ok y x0 b a0 Hy Hx) in L. congruence.
    - intros x0 y a0 b Hx Hy E. left. apply (fltb_ok y x0 b a0 Hy Hx). exact E.
    - intros u v w H1 H2. exact (ext_le_trans _ _ _ H2 H1).
    - eexists _, c. split; [apply (reduce_noid nx _ s x l Y)|]. auto.
  Qed.
  (** Finding: a NaN makes Max and Min forget everything before it: the result is that of the elements behind the last NaN, or
      NaN when there are none. *)
  Lemma max_nan l1 l2 x : fold_left (fun a b => if fltb b a then a else b) (l1 ++ NaN :: l2) x = fold_left (fun a b => if fltb b a then a else b) l2 NaN.
  Proof. rewrite fold_left_app. reflexivity. Qed.
  Lemma min_nan l1 l2 x : fold_left (fun a b => if fltb a b then a else b) (l1 ++ NaN :: l2) x = fold_left (fun a b => if fltb a b then a else b) l2 NaN.
  Proof. rewrite fold_left_app. cbn [fold_left]. destruct (fold_left _ l1 x); reflexivity. Qed.
  Theorem C89_stream_max_nan_refuted s l1 y l2 : yields nx s (l1 ++ NaN :: y :: l2) EOI -> Forall (fun y => exists b, stands y b) (y :: l2) ->
    exists m c, yields (next (st_max nx fltb)) (ofIter (false, s)) [m] EOI /\ In m (y :: l2) /\ stands m c /\
      forall z b, In z (y :: l2) -> stands z b -> ext_le b c.
  Proof.
    intros Y F. inversion F as [|? ? (a & Ha) F']; subst.
    destruct (pick_fold fltb ext_le) with (l := l2) (x := y) (a := a) as (c & I & Hc & M); auto.
    - intros x0 y0 a0 b Hx Hy E. apply ext_not_lt. intros L. apply (fltb_ok x0 y0 a0 b Hx Hy) in L. congruence.
    - intros x0 y0 a0 b Hx Hy E. left. apply (fltb_ok x0 y0 a0 b Hx Hy). exact E.
    - exact ext_le_trans.
    - eexists _, c. split; [|split; [exact I|auto]].
      destruct l1 as [|x l1]; cbn [app] in Y.
      + pose proof (reduce_noid nx (fun a b => if fltb b a then a else b) s _ _ Y) as R. cbn [fold_left] in R.
        rewrite (proj1 (fltb_nan y NaN ltac:(tauto))) in R. exact R.
      + pose proof (reduce_noid nx (fun a b => if fltb b a then a else b) s _ _ Y) as R. rewrite max_nan in R. cbn [fold_left] in R.
        rewrite (proj1 (fltb_nan y NaN ltac:(tauto))) in R. exact R.
  Qed.
  Theorem C89_stream_min_nan_refuted s l1 y l2 : yields nx s (l1 ++ NaN :: y :: l2) EOI -> Forall (fun y => exists b, stands y b) (y :: l2) ->
    exists m c, yields (next (st_min nx fltb)) (ofIter (false, s)) [m] EOI /\ In m (y :: l2) /\ stands m c /\
      forall z b, In z (y :: l2) -> stands z b -> ext_le c b.
  Proof.
    intros Y F. inversion F as [|? ? (a & Ha) F']; subst.
    destruct (pick_fold (fun u v => fltb v u) (fun u v => ext_le v u)) with (l := l2) (x := y) (a := a) as (c & I & Hc & M); auto.
    - intros x0 y0 a0 b Hx Hy E. apply ext_not_lt. intros L. apply (fltb_ok y0 x0 b a0 Hy Hx) in L. congruence.
    - intros x0 y0 a0 b Hx Hy E. left. apply (fltb_ok y0 x0 b a0 Hy Hx). exact E.
    - intros u v w H1 H2. exact (ext_le_trans _ _ _ H2 H1).
    - eexists _, c. split; [|split; [exact I|auto]].
      destruct l1 as [|x l1]; cbn [app] in Y.
      + exact (reduce_noid nx (fun a b => if fltb a b then a else b) s _ _ Y).
      + pose proof (reduce_noid nx (fun a b => if fltb a b then a else b) s _ _ Y) as R. rewrite min_nan in R. exact R.
  Qed.
  Theorem C89_stream_max_min_last_nan s l : yields nx s (l ++ [NaN]) EOI ->
    yields (next (st_max nx fltb)) (ofIter (false, s)) [NaN] EOI /\ yields (next (st_min nx fltb)) (ofIter (false, s)) [NaN] EOI.
  Proof.
    intros Y. destruct l as [|x l]; cbn [app] in Y.
    - split; [exact (reduce_noid nx (fun a b => if fltb b a then a else b) s _ _ Y)|exact (reduce_noid nx (fun a b => if fltb a b then a else b) s _ _ Y)].
    - pose proof (reduce_noid nx (fun a b => if fltb b a then a else b) s _ _ Y) as R1. rewrite max_nan in R1.
      pose proof (reduce_noid nx (fun a b => if fltb a b then a else b) s _ _ Y) as R2. rewrite min_nan in R2. split; assumption.
  Qed.

  (** Sum adds the elements in order, rounding after every addition. *)
  Lemma fold_added k l : forall x, added_up k x l (fold_left (fadd k) l x).
  Proof. induction l as [|y l IH]; intros x; cbn [fold_left]; [constructor|]. econstructor; [apply fadd_ok|apply IH]. Qed.
  Theorem C89_sum k s x l : yields nx s (x :: l) EOI ->
    exists z, yields (next (st_sum_float zf k nx)) (ofIter (false, s)) [z] EOI /\ added_up k x l z.
  Proof. intros Y. exists (fold_left (fadd k) l x). split; [exact (reduce_noid nx (fadd k) s x l Y)|apply fold_added]. Qed.
  (** ... so it is exact when the partial sums are numbers of the type ... *)
  Theorem C89_sum_exact k s x l p qs : yields nx s (x :: l) EOI -> Forall2 denotes (x :: l) (p :: qs) ->
    (forall n, representable (fmt_of k) (fold_left Qplus (firstn n qs) p)) ->
    exists z, yields (next (st_sum_float zf k nx)) (ofIter (false, s)) [z] EOI /\ denotes z (fold_left Qplus qs p).
  Proof.
    intros Y D R. exists (fold_left (fadd k) l x). split; [exact (reduce_noid nx (fadd k) s x l Y)|].
    clear Y. inversion D as [|? ? ? ? Dx Dl]; subst. clear D. revert x p Dx R. induction Dl as [|y q l qs Dy Dl IH]; intros x p Dx R; cbn [fold_left]; [exact Dx|].
    apply IH.
    - pose proof (fadd_ok k x y) as A. specialize (R 1%nat). cbn [firstn fold_left] in R.
      assert (Fx : finite x) by (eapply denotes_finite; eassumption). assert (Fy : finite y) by (eapply denotes_finite; eassumption).
      destruct x as [|a|a m e]; try contradiction. destruct y as [|b|b m' e']; try contradiction. cbn [added] in A.
      destruct (A p q Dx Dy) as (_ & N & _). destruct N as (_ & y & Dy' & N).
      { pose proof R as (w & Fw & Dw). pose proof (is_float_nonneg _ _ Fw) as Nw. destruct w as [|c|c mw ew]; try contradiction. cbn [denotes] in Dw. cbn in Fw, Nw.
        rewrite Dw. destruct (fmt_ok k) as (P1 & P2 & P3). apply Qabs_Qle_condition. split.
        - apply Qopp_le_compat in Dw || idtac. rewrite <- (Qopp_involutive (digits _ _ _)). apply Qopp_le_compat. rewrite <- digits_opp.
          apply max_bound; try assumption; destruct c; lia.
        - apply max_bound; try assumption; destruct c; lia. }
      specialize (N _ R). assert (Z0 : (p + q - y == 0)%Q).
      { setoid_replace (p + q - (p + q))%Q with 0%Q in N by ring. change (Qabs 0) with 0%Q in N.
        pose proof (Qabs_nonneg (p + q - y)) as N0. assert (E0 : (Qabs (p + q - y) == 0)%Q) by (apply Qle_antisym; assumption).
        revert E0. apply Qabs_case; intros _ E0; [exact E0|]. rewrite <- (Qopp_involutive (p + q - y)). rewrite E0. reflexivity. }
      eapply denotes_eq; [|exact Dy']. setoid_replace y with (p + q - (p + q - y))%Q by ring. rewrite Z0. ring.
    - intros n. exact (R (S n)).
  Qed.
  (** ... and a NaN anywhere makes it NaN. *)
  Theorem C89_sum_nan k s l : In NaN l -> yields nx s l EOI -> yields (next (st_sum_float zf k nx)) (ofIter (false, s)) [NaN] EOI.
  Proof.
    intros I Y. destruct l as [|x l]; [destruct I|]. pose proof (reduce_noid nx (fadd k) s x l Y) as R.
    replace NaN with (fold_left (fadd k) l x); [exact R|]. clear Y R.
    assert (St' : forall l, fold_left (fadd k) l NaN = NaN) by (induction l0; cbn; auto).
    destruct I as [->|I]; [apply St'|]. apply in_split in I. destruct I as (l1 & l2 & ->). rewrite fold_left_app. cbn [fold_left].
    replace (fadd k _ NaN) with NaN by (destruct (fold_left (fadd k) l1 x); reflexivity). apply St'.
  Qed.
End Streams.
(** Finding: the sum of float32 numbers depends on their order: 2^24 + 1 + 1 = 2^24, but 1 + 1 + 2^24 = 2^24 + 2. *)
Theorem C89_sum_order_refuted : exists l l', Permutation l l' /\ Forall (fun x => is_float f32 x) l /\
  exists x y q r, l = x :: tl l /\ l' = y :: tl l' /\ denotes (fold_left (fadd S32) (tl l) x) q /\ denotes (fold_left (fadd S32) (tl l') y) r /\ ~ (q == r)%Q.
Proof.
  exists [Fin false 8388608 1; Fin false 1 0; Fin false 1 0], [Fin false 1 0; Fin false 1 0; Fin false 8388608 1].
  split. { apply (Permutation_cons_append [Fin false 1 0; Fin false 1 0] (Fin false 8388608 1)). }
  split. { repeat constructor; cbn; lia. }
  exists (Fin false 8388608 1), (Fin false 1 0), (inject_Z 16777216), (inject_Z 16777218).
  split; [reflexivity|]. split; [reflexivity|]. cbn [tl]. split; [vm_compute; reflexivity|]. split; [vm_compute; reflexivity|]. discriminate.
Qed.

(** The complex functions compare the moduli. *)
Section Complex.
  Context {C : Type} (modulus : C -> float).
  Theorem C89_complex x y a b : stands (modulus x) a -> stands (modulus y) b ->
    (cmp_complex modulus x y = -1 <-> ext_lt a b) /\ (cmp_complex modulus x y = 0 <-> ext_eq a b) /\ (cmp_complex modulus x y = 1 <-> ext_lt b a) /\
    (min_complex modulus x y = if cmp_complex modulus x y =? 1 then y else x) /\
    (max_complex modulus x y = if cmp_complex modulus x y =? -1 then y else x).
  Proof.
    intros Hx Hy. destruct (C89_cmp _ _ a b Hx Hy) as (A & B & D).
    change (cmp_complex modulus x y) with (cmp_float (modulus x) (modulus y)). split; [exact A|]. split; [exact B|]. split; [exact D|].
    pose proof (fltb_ok _ _ a b Hx Hy) as L1. pose proof (fltb_ok _ _ b a Hy Hx) as L2.
    assert (X1 : ext_lt a b -> ~ ext_lt b a).
    { destruct a as [|p|], b as [|q|]; cbn; try tauto. intros L. apply Qle_not_lt, Qlt_le_weak, L. }
    unfold min_complex, max_complex, cmp_float, cmp_ordered. destruct (fltb (modulus x) (modulus y)), (fltb (modulus y) (modulus x)); split; try reflexivity.
    exfalso. apply X1; [apply L1|apply L2]; reflexivity.
  Qed.
End Complex.

(** ** C90: the types themselves, and types declared by the user *)
(** Abs and Div of the predeclared types do what C30, C31 and C89 say. *)
Theorem C90_abs_plain : (forall k v, abs_any (Plain (BInt k)) (NInt v) = Done (let '(e, z) := MathInt.abs k v in (e, NInt z))) /\
  (forall s x, abs_any (Plain (BFloat s)) (NFloat x) = Done (let '(e, z) := abs_float s x in (e, NFloat z))).
Proof. split; [intros k v; destruct k; try reflexivity; cbn -[MathInt.abs]; match goal with |- context[MathInt.abs ?k v] => destruct (MathInt.abs k v); reflexivity end|intros [] x; reflexivity]. Qed.
Theorem C90_div_plain : (forall k v w q, div_any (Plain (BInt k)) (NInt v) (NInt w) (NInt q) = Done (let '(e, z) := MathInt.div k v w q in (e, NInt z))) /\
  (forall s x y z, div_any (Plain (BFloat s)) (NFloat x) (NFloat y) (NFloat z) = Done (let '(e, r) := div_float s x y in (e, NFloat r))).
Proof. split; [intros k v w q; destruct k; cbn -[MathInt.div]; match goal with |- context[MathInt.div ?k v w q] => destruct (MathInt.div k v w q); reflexivity end|intros [] x y z; reflexivity]. Qed.

Fixpoint has_dot (s : string) : bool := match s with EmptyString => false | String c s' => Ascii.eqb c "."%char || has_dot s' end.
Lemma has_dot_name p n : has_dot (p ++ "." ++ n)%string = true.
Proof. induction p as [|c p IH]; [reflexivity|]. change (Ascii.eqb c "."%char || has_dot (p ++ "." ++ n)%string = true). rewrite IH. apply Bool.orb_true_r. Qed.
Lemma lookup_named (tbl : list (string * base)) p n : String.prefix "*"%string p = false ->
  Forall (fun kb => has_dot (fst kb) = false \/ String.prefix "*"%string (fst kb) = true) tbl -> lookup tbl (p ++ "." ++ n)%string = None.
Proof.
  intros Hp F. induction F as [|[k b] tbl H F IH]; [reflexivity|]. cbn [lookup fst] in *. destruct (String.eqb_spec (p ++ "." ++ n)%string k) as [E|_]; [exfalso|exact IH].
  destruct H as [H|H].
  - rewrite <- E, has_dot_name in H. discriminate.
  - rewrite <- E in H. destruct p as [|c p]; [discriminate|]. cbn [String.append String.prefix] in *. destruct (Ascii.ascii_dec "*"%char c); [|discriminate].
    destruct p; discriminate.
Qed.
Lemma prefix_named p n : String.prefix "uint"%string (p ++ "." ++ n)%string = String.prefix "uint"%string p.
Proof.
  destruct p as [|c0 p]; [reflexivity|]. cbn [String.append String.prefix]. destruct (Ascii.ascii_dec "u"%char c0); [|reflexivity].
  destruct p as [|c1 p]; [reflexivity|]. cbn [String.append String.prefix]. destruct (Ascii.ascii_dec "i"%char c1); [|reflexivity].
  destruct p as [|c2 p]; [reflexivity|]. cbn [String.append String.prefix]. destruct (Ascii.ascii_dec "n"%char c2); [|reflexivity].
  destruct p as [|c3 p]; [reflexivity|]. cbn [String.append String.prefix]. destruct (Ascii.ascii_dec "t"%char c3); [|reflexivity].
  destruct p; reflexivity.
Qed.
(** Finding: although constraint.Numeric admits them, Div panics for every declared type, and so does Abs unless the name of the
    package begins with "uint"; in such a package Abs leaves every number as it is, negative ones too. *)
Theorem C90_div_named_refuted pkg name under de dv q : String.prefix "*"%string pkg = false -> div_any (Named pkg name under) de dv q = Panicked.
Proof. intros H. unfold div_any. cbn [type_string]. rewrite lookup_named; [reflexivity|exact H|]. unfold to_div; repeat (apply Forall_cons || apply Forall_nil); cbn [fst]; auto. Qed.
Theorem C90_abs_named_refuted pkg name under v : String.prefix "*"%string pkg = false ->
  (String.prefix "uint"%string pkg = false -> abs_any (Named pkg name under) v = Panicked) /\
  (String.prefix "uint"%string pkg = true -> abs_any (Named pkg name under) v = Done (None, v)).
Proof.
  intros H. unfold abs_any. cbn [type_string]. rewrite prefix_named. split; intros ->; [|reflexivity].
  rewrite lookup_named; [reflexivity|exact H|]. unfold to_abs; repeat (apply Forall_cons || apply Forall_nil); cbn [fst]; auto.
Qed.

(** ** Examples *)
Example ex_stands : stands (Fin true 3 (-1)) (Num (-3 # 2)) /\ stands (Inf false) PlusInf.
Proof. split; [vm_compute; reflexivity|reflexivity]. Qed.
Example ex_div : div_float S32 (Fin false 1 0) (Fin false 3 0) = (None, Fin false 11184811 (-25)). Proof. reflexivity. Qed.
Example ex_div0 : div_float S64 (Fin false 1 0) (Fin true 0 0) = (None, Inf true). Proof. reflexivity. Qed.
Example ex_overflow : fadd S32 (Fin false (2 ^ 24 - 1) 104) (Fin false 1 103) = Inf false /\
  fadd S32 (Fin false (2 ^ 24 - 1) 104) (Fin false 1 102) = Fin false (2 ^ 24 - 1) 104.
Proof. split; reflexivity. Qed.
Example ex_max_nan : fold_left (fun a b => if fltb b a then a else b) [NaN; Fin false 1 0] (Fin false 5 0) = Fin false 1 0. Proof. reflexivity. Qed.
Example ex_pkg : String.prefix "*"%string "main"%string = false /\ String.prefix "uint"%string "main"%string = false /\ String.prefix "uint"%string "uints"%string = true. Proof. repeat split. Qed.

Print Assumptions C89_abs. Print Assumptions C89_div. Print Assumptions C89_cmp. Print Assumptions C89_cmp_nan_refuted.
Print Assumptions C89_min_max. Print Assumptions C89_min_max_nan. Print Assumptions C89_range_nan. Print Assumptions C89_set_value_nan.
Print Assumptions C89_stream_max. Print Assumptions C89_stream_min. Print Assumptions C89_stream_max_nan_refuted.
Print Assumptions C89_stream_min_nan_refuted. Print Assumptions C89_stream_max_min_last_nan. Print Assumptions C89_sum.
Print Assumptions C89_sum_exact. Print Assumptions C89_sum_nan. Print Assumptions C89_sum_order_refuted. Print Assumptions C89_complex.
Print Assumptions C90_abs_plain. Print Assumptions C90_div_plain. Print Assumptions C90_div_named_refuted. Print Assumptions C90_abs_named_refuted.
