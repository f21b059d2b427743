(** Property theorems C27-C33 and C42: checked integer arithmetic, ranges, integer conversions. *)
From Verif Require Import Base GoInt Conv ConvSpec ConvProofs MathInt MathIntSpec MathIntProofs.
Open Scope Z_scope.

(** C27. Exact result with a nil error when representable, overflow/underflow error otherwise. *)
Theorem C27_add_int k a b : is_signed k = true -> in_type k a -> in_type k b -> checked k (a + b) (add_int k a b).
Proof. exact (add_int_checked k a b). Qed.
Print Assumptions C27_add_int.

Theorem C27_add_uint k a b : is_signed k = false -> in_type k a -> in_type k b -> checked k (a + b) (add_uint k a b).
Proof. exact (add_uint_checked k a b). Qed.
Print Assumptions C27_add_uint.

Theorem C27_sub_uint k a b : is_signed k = false -> in_type k a -> in_type k b -> checked k (a - b) (sub_uint k a b).
Proof. exact (sub_uint_checked k a b). Qed.
Print Assumptions C27_sub_uint.

Example C27_nonvacuous :
  in_type KInt8 100 /\ in_type KInt8 (-128) /\ add_int KInt8 100 27 = (None, 127) /\
  add_int KInt8 100 28 = (Some OverflowErr, -128) /\ add_int KInt8 (-128) (-1) = (Some UnderflowErr, 127) /\
  add_uint KUint16 65535 1 = (Some OverflowErr, 0) /\ sub_uint KUint64 3 4 = (Some UnderflowErr, 2 ^ 64 - 1).
Proof. repeat split; try discriminate. Qed.

(** C28. The same for SubInt, except when the type's minimum is subtracted. *)
Theorem C28_sub_int k me sed : is_signed k = true -> in_type k me -> in_type k sed -> sed <> min_of k ->
  checked k (me - sed) (sub_int k me sed).
Proof. exact (sub_int_checked k me sed). Qed.
Print Assumptions C28_sub_int.

(** C28, finding: subtracting the minimum is wrong for every minuend. A negative minuend, whose difference is
    representable, gets an underflow error; any other gets a nil error and the wrong value [me + min]. *)
Theorem C28_sub_int_min_wrong k me : is_signed k = true -> in_type k me ->
  ~ checked k (me - min_of k) (sub_int k me (min_of k)) /\
  sub_int k me (min_of k) = if me <? 0 then (Some UnderflowErr, me - min_of k) else (None, me + min_of k).
Proof.
  intros Hk Ha. pose proof (sub_int_min k me Hk Ha) as E. split; [|exact E]. rewrite E. intros (C1 & C2 & _).
  unfold in_type, min_of in *. rewrite Hk in *. destruct (Z.ltb_spec me 0) as [L|L].
  - specialize (C1 ltac:(lia)). discriminate.
  - specialize (C2 ltac:(lia) ltac:(lia)). discriminate.
Qed.
Print Assumptions C28_sub_int_min_wrong.

Example C28_nonvacuous :
  sub_int KInt8 (-100) 28 = (None, -128) /\ sub_int KInt8 (-100) 29 = (Some UnderflowErr, 127) /\
  sub_int KInt8 0 (-128) = (None, -128) /\ sub_int KInt8 (-1) (-128) = (Some UnderflowErr, 127).
Proof. repeat split. Qed.

(** C29. Mul over every integer type; on error the second argument keeps its value. *)
Theorem C29_mul k a b : checked k (a * b) (mul k a b) /\ (~ in_type k (a * b) -> snd (mul k a b) = b).
Proof. exact (mul_checked k a b). Qed.
Print Assumptions C29_mul.

Example C29_nonvacuous :
  mul KInt8 (-16) 8 = (None, -128) /\ mul KInt8 16 8 = (Some OverflowErr, 8) /\
  mul KInt64 (-3037000500) 3037000500 = (Some UnderflowErr, 3037000500) /\ mul KUint32 65536 65536 = (Some OverflowErr, 65536).
Proof. repeat split. Qed.

(** C30. Zero divisors: an error, quotient untouched. *)
Theorem C30_div_zero k n q : div k n 0 q = (Some DivByZeroErr, q).
Proof. exact (div_zero k n q). Qed.
Print Assumptions C30_div_zero.

Theorem C30_div_unsigned k n d q : is_signed k = false -> in_type k n -> in_type k d -> d <> 0 ->
  exists q', div k n d q = (None, q') /\ rounds_to n d q'.
Proof. exact (div_unsigned_ok k n d q). Qed.
Print Assumptions C30_div_unsigned.

Theorem C30_div_signed k n d q : is_signed k = true -> in_type k n -> in_type k d -> d <> 0 ->
  ~ (n = min_of k /\ d = -1) -> ~ bad_div n d ->
  exists q', div k n d q = (None, q') /\ rounds_to n d q'.
Proof. exact (div_signed_ok k n d q). Qed.
Print Assumptions C30_div_signed.

(** C30, findings: a quotient in (-1, -1/2] comes out as +1 (it rounds to -1), and the minimum over -1 comes out as
    the minimum with a nil error. *)
Theorem C30_div_signed_wrong k n d q : is_signed k = true -> in_type k n -> in_type k d -> bad_div n d ->
  div k n d q = (None, 1) /\ rounds_to n d (-1) /\ ~ rounds_to n d 1.
Proof.
  intros Hk Hn Hd B. destruct (div_signed_bad k n d q Hk Hn Hd B) as [E R]. split; [exact E|]. split; [exact R|].
  intros R1. assert (d <> 0) by (destruct B; nia). pose proof (rounds_to_unique n d _ _ H R R1). discriminate.
Qed.
Print Assumptions C30_div_signed_wrong.

Theorem C30_div_min_wrong k q : is_signed k = true ->
  div k (min_of k) (-1) q = (None, min_of k) /\ ~ in_type k (Z.quot (min_of k) (-1)).
Proof.
  intros Hk. split; [exact (div_min k q Hk)|]. destruct k; try discriminate; intros [A B]; vm_compute in A, B; auto.
Qed.
Print Assumptions C30_div_min_wrong.

(** C30. The rounding specification determines the quotient. *)
Theorem C30_spec_unique n d q1 q2 : d <> 0 -> rounds_to n d q1 -> rounds_to n d q2 -> q1 = q2.
Proof. exact (rounds_to_unique n d q1 q2). Qed.
Print Assumptions C30_spec_unique.

(** C30. big.Int division has no bounds, hence only the sign defect. *)
Theorem C30_div_big n d q : d <> 0 ->
  exists q', div_big n d q = (None, q') /\ (~ bad_div n d -> rounds_to n d q') /\ (bad_div n d -> q' = 1).
Proof.
  intros Hd. exists (rq n d). split; [exact (div_big_rq n d q Hd)|]. split; [exact (rq_rounds n d Hd)|exact (rq_bad n d Hd)].
Qed.
Print Assumptions C30_div_big.

Example C30_nonvacuous :
  div KInt 18 4 0 = (None, 5) /\ div KInt 17 5 0 = (None, 3) /\ div KInt8 (-7) 2 0 = (None, -4) /\
  div KInt16 (-128) (-3) 0 = (None, 43) /\ div KUint64 (2 ^ 64 - 1) 2 0 = (None, 2 ^ 63) /\
  bad_div (-1) 2 /\ div KInt (-1) 2 0 = (None, 1) /\ ~ bad_div (-7) 2.
Proof. unfold bad_div. repeat split; try lia. Qed.

(** C31. *)
Theorem C31_abs k v : in_type k v ->
  (is_signed k = true -> v = min_of k -> fst (abs k v) <> None) /\
  (~ (is_signed k = true /\ v = min_of k) -> abs k v = (None, Z.abs v)).
Proof. exact (abs_ok k v). Qed.
Print Assumptions C31_abs.

Example C31_nonvacuous : abs KInt8 (-127) = (None, 127) /\ abs KInt8 (-128) = (Some abs_err, -128) /\ abs KUint8 200 = (None, 200).
Proof. repeat split. Qed.

(** C32. A history of SetValue calls: each call returns nil iff its value is within the bounds, the bounds never
    change, and the value held at the end is the last in-range one (the initial value if there was none).
    The comparisons are arbitrary, so this includes floats with NaN. *)
Theorem C32_history {T} (ltb leb : T -> T -> bool) vals r es r' :
  set_values ltb leb r vals = (es, r') ->
  r_min r' = r_min r /\ r_minMode r' = r_minMode r /\ r_max r' = r_max r /\ r_maxMode r' = r_maxMode r /\
  last_sat (in_range ltb leb r) (r_val r) vals (r_val r') /\
  (forall i v, nth_error vals i = Some v -> (nth_error es i = Some None <-> in_range ltb leb r v)) /\
  length es = length vals.
Proof. exact (set_values_spec ltb leb vals r es r'). Qed.
Print Assumptions C32_history.

(** C32. Hence once a call has succeeded the held value is in range (and was accepted). *)
Theorem C32_in_range {T} (ltb leb : T -> T -> bool) vals r es r' :
  set_values ltb leb r vals = (es, r') -> In None es ->
  in_range ltb leb r' (r_val r') /\ In (r_val r') vals.
Proof.
  intros E I. destruct (set_values_spec ltb leb vals r es r' E) as (A & B & C & D & L & F & Len).
  apply In_nth_error in I as [i Hi].
  assert (Hlt : (i < length vals)%nat) by (rewrite <- Len; apply nth_error_Some; congruence).
  destruct (nth_error vals i) as [v|] eqn:Hv; [|apply nth_error_None in Hv; lia].
  assert (Q : in_range ltb leb r v) by (apply (F i v Hv); exact Hi).
  apply nth_error_In in Hv.
  destruct (last_sat_in _ _ _ _ L (ex_intro _ v (conj Hv Q))) as [P In'].
  split; [|exact In']. unfold in_range in *. rewrite A, B, C, D. exact P.
Qed.
Print Assumptions C32_in_range.

(** C32, finding: OfRange keeps an initial value outside the range, contrary to its comment. *)
Theorem C32_initial_unchecked :
  exists r, of_range Z.leb 0 true 10 true 99 = Done r /\ ~ in_range Z.ltb Z.leb r (r_val r).
Proof. eexists. split; [reflexivity|]. intros [_ H]. discriminate. Qed.
Print Assumptions C32_initial_unchecked.

(** C32. OfRange panics exactly when max <= min. *)
Theorem C32_of_range_panics {T} (leb : T -> T -> bool) min mm max xm v :
  (of_range leb min mm max xm v = Panicked <-> leb max min = true) /\
  (leb max min = false -> of_range leb min mm max xm v = Done (mkRange min mm max xm v)).
Proof. unfold of_range. destruct (leb max min); simpl; split; try split; intros; auto; discriminate. Qed.
Print Assumptions C32_of_range_panics.

Example C32_nonvacuous :
  set_values Z.ltb Z.leb (mkRange 0 true 10 false 5) [10; 0; 11; 7; -1] =
  ([Some range_err; None; Some range_err; None; Some range_err], mkRange 0 true 10 false 7).
Proof. reflexivity. Qed.

(** C33. CmpOrdered is the three way comparison of a strict total order. *)
Theorem C33_cmp {T} (ltb : T -> T -> bool) (O : strict_total ltb) :
  (forall a b, (cmp_ordered ltb a b = -1 <-> ltb a b = true) /\ (cmp_ordered ltb a b = 0 <-> a = b) /\
               (cmp_ordered ltb a b = 1 <-> ltb b a = true)) /\
  (forall a b, cmp_ordered ltb b a = - cmp_ordered ltb a b) /\
  (forall a b c, cmp_ordered ltb a b <= 0 -> cmp_ordered ltb b c <= 0 -> cmp_ordered ltb a c <= 0).
Proof.
  split; [|split; [exact (cmp_antisym ltb O)|exact (cmp_trans ltb O)]]. intros a b.
  destruct (cmp_spec ltb O a b) as (A & B & C).
  destruct (cmp_values ltb O a b) as [[E H]|[[E H]|[E H]]]; rewrite E in *;
  repeat split; intros; auto; try discriminate; try (specialize (A H0)); try (specialize (B H0)); try (specialize (C H0));
  try discriminate.
Qed.
Print Assumptions C33_cmp.

(** C33. MinOrdered/MaxOrdered return one of their arguments, not above/below either. *)
Theorem C33_min_max {T} (ltb : T -> T -> bool) (O : strict_total ltb) a b :
  (min_ordered ltb a b = a \/ min_ordered ltb a b = b) /\
  ltb a (min_ordered ltb a b) = false /\ ltb b (min_ordered ltb a b) = false /\
  (max_ordered ltb a b = a \/ max_ordered ltb a b = b) /\
  ltb (max_ordered ltb a b) a = false /\ ltb (max_ordered ltb a b) b = false.
Proof. exact (min_max_ordered ltb O a b). Qed.
Print Assumptions C33_min_max.

(** C33. MinCmp/MaxCmp with the comparison of a strict total order are MinOrdered/MaxOrdered. *)
Theorem C33_min_max_cmp {T} (ltb : T -> T -> bool) (O : strict_total ltb) a b :
  min_cmp (cmp_ordered ltb) a b = min_ordered ltb a b /\ max_cmp (cmp_ordered ltb) a b = max_ordered ltb a b.
Proof.
  unfold min_cmp, max_cmp, min_ordered, max_ordered.
  destruct (cmp_spec ltb O a b) as (A & B & C). destruct O as (I & Tr & To).
  destruct (To a b) as [H|[H|H]].
  - rewrite (A H), H. destruct (ltb b a) eqn:E; [|split; reflexivity]. pose proof (Tr a b a H E). rewrite I in H0. discriminate.
  - rewrite (B H). subst. rewrite I. split; reflexivity.
  - rewrite (C H), H. destruct (ltb a b) eqn:E; [|split; reflexivity]. pose proof (Tr a b a E H). rewrite I in H0. discriminate.
Qed.
Print Assumptions C33_min_max_cmp.

(** C33. MinCmp and MaxCmp for any Cmp method: its sign decides, and on a tie the first argument is returned. *)
Theorem C33_min_max_cmp_ties {T} (cmp : T -> T -> Z) a b :
  (cmp a b < 0 -> min_cmp cmp a b = a /\ max_cmp cmp a b = b) /\
  (cmp a b > 0 -> min_cmp cmp a b = b /\ max_cmp cmp a b = a) /\
  (cmp a b = 0 -> min_cmp cmp a b = a /\ max_cmp cmp a b = a).
Proof.
  unfold min_cmp, max_cmp. destruct (0 <? cmp a b) eqn:A; destruct (cmp a b <? 0) eqn:B;
    apply Z.ltb_lt in A || apply Z.ltb_ge in A; apply Z.ltb_lt in B || apply Z.ltb_ge in B; repeat split; intros; lia || reflexivity.
Qed.
Print Assumptions C33_min_max_cmp_ties.

Example C33_nonvacuous : strict_total Z.ltb /\ cmp_ordered Z.ltb 3 5 = -1 /\ min_ordered Z.ltb 3 5 = 3 /\ max_ordered Z.ltb 3 5 = 5.
Proof. split; [repeat split; intros; lia|repeat split]. Qed.

(** C42. conv.To between any two integer types: never panics, exact when representable, error and untouched output
    otherwise. *)
Theorem C42_to_int s t ival oval : in_type s ival ->
  exists r, to_int s t ival oval = Done r /\ exact_conversion t ival oval r.
Proof. exact (to_int_exact s t ival oval). Qed.
Print Assumptions C42_to_int.

Theorem C42_from_big t ival oval : exact_conversion t ival oval (to_int_from_big t ival oval).
Proof. exact (from_big_exact t ival oval). Qed.
Print Assumptions C42_from_big.

Theorem C42_round_trip s t ival o1 o2 v : in_type s ival ->
  to_int s t ival o1 = Done (None, v) -> to_int t s v o2 = Done (None, ival).
Proof. exact (to_int_round_trip s t ival o1 o2 v). Qed.
Print Assumptions C42_round_trip.

Example C42_nonvacuous :
  in_type KInt (-1) /\ to_int KInt KUint8 255 7 = Done (None, 255) /\ to_int KInt KUint8 256 7 = Done (Some conv_err, 7) /\
  to_int KUint64 KInt64 (2 ^ 63) 7 = Done (Some conv_err, 7) /\ to_int KInt8 KUint64 (-1) 7 = Done (Some conv_err, 7) /\
  to_int_from_big KInt32 (2 ^ 31) 7 = (Some conv_err, 7) /\ to_int_from_big KUint64 (2 ^ 64 - 1) 7 = (None, 2 ^ 64 - 1).
Proof. repeat split; try discriminate. Qed.
