(** Property theorems C13-C23, C64, C65: stream transforms.  [nx]/[s] is any source iterator; an iterator built by a
    transform is observed through [next]. *)
From Coq Require Import Permutation Sorting.
From Verif Require Import Base IterSpec Iter IterProofs IterGen IterGenProofs GoInt GoMap Slice Conv ConvSpec
  MathInt MathIntSpec MathIntProofs Stream StreamSpec StreamProofs StreamProofs2.
Open Scope nat_scope.

Section C13_23.
  Context {S T : Type} `{ZT : Zero T}.
  Variable nx : stepfn S T.

  (** C13. Map, complete behaviour. *)
  Theorem C13_map {U} `{Zero U} (f : T -> U) s l e :
    yields nx s l e -> yields (next (st_map nx (pure_map f))) (ofIter (s, tt)) (map f l) e.
  Proof. intros Y. pose proof (st_map_yields nx (pure_map f) tt s l e Y) as R. rewrite map_acc_pure in R. exact R. Qed.

  (** C13. Map is lazy: after returning n values exactly n source values have been pulled (the source is in state s'),
      also for infinite sources. *)
  Theorem C13_map_lazy {U} `{Zero U} (f : T -> U) s l s' :
    emits nx s l s' -> emits (next (st_map nx (pure_map f))) (ofIter (s, tt)) (map f l) (ofIter (s', tt)).
  Proof. intros Y. pose proof (st_map_prefix nx (pure_map f) tt s l s' Y) as R. rewrite map_acc_pure in R. exact R. Qed.

  (** C13. The same for callbacks with captured variables: one call per value, in order. *)
  Theorem C13_map_stateful {U C} `{Zero U} (f : C -> T -> U * C) c s l e :
    yields nx s l e -> yields (next (st_map nx f)) (ofIter (s, c)) (fst (map_acc f c l)) e.
  Proof. exact (st_map_yields nx f c s l e). Qed.

  (** C13. MapError when the callback accepts everything. *)
  Theorem C13_map_error_ok {U C} `{Zero U} (f : C -> T -> ret U * C) c s l e :
    yields nx s l e -> Forall (fun r => snd r = None) (fst (map_acc f c l)) ->
    yields (next (st_map_error nx f)) (ofIter (s, c)) (map fst (fst (map_acc f c l))) e.
  Proof. exact (st_map_error_yields nx f c s l e). Qed.

  (** C13. MapError at the first rejected value v: the values before it, then the callback's error for ever, the source
      standing just behind v. *)
  Theorem C13_map_error_reject {U C} `{Zero U} (f : C -> T -> ret U * C) c s l v s' u e c' :
    emits nx s (l ++ [v]) s' -> Forall (fun r => snd r = None) (fst (map_acc f c l)) ->
    f (snd (map_acc f c l)) v = ((u, Some e), c') ->
    exists it, emits (next (st_map_error nx f)) (ofIter (s, c)) (map fst (fst (map_acc f c l))) it /\
      returns (next (st_map_error nx f)) it (zv, Some e) (dead (s', c') e) /\
      stuck (next (st_map_error nx f)) (dead (s', c') e) e.
  Proof. exact (st_map_error_rejects nx f c s l v s' u e c'). Qed.

  (** C13. Peek: same values, same end; its function is called once per value, in order (folded into its variables). *)
  Theorem C13_peek {C} (f : C -> T -> C) c s l e :
    yields nx s l e -> yields (next (st_peek nx f)) (ofIter (s, c)) l e.
  Proof. exact (st_peek_yields nx f c s l e). Qed.
  Theorem C13_peek_lazy {C} (f : C -> T -> C) c s l s' :
    emits nx s l s' -> emits (next (st_peek nx f)) (ofIter (s, c)) l (ofIter (s', fold_left f l c)).
  Proof. intros. apply ofIter_emits, st_peek_emits; auto. Qed.

  (** C14. Filter, complete behaviour. *)
  Theorem C14_filter (p : T -> bool) s l e :
    yields nx s l e -> yields (next (st_filter nx (pure_map p))) (ofIter (s, tt)) (filter p l) e.
  Proof. intros Y. pose proof (st_filter_yields nx (pure_map p) tt s l e Y) as R. rewrite filter_acc_pure in R. exact R. Qed.

  (** C14. A returned value [v] is the last source value pulled; also for infinite sources. *)
  Theorem C14_filter_lazy (p : T -> bool) s l v s' :
    emits nx s (l ++ [v]) s' -> p v = true ->
    emits (next (st_filter nx (pure_map p))) (ofIter (s, tt)) (filter p l ++ [v]) (ofIter (s', tt)).
  Proof.
    intros E P. pose proof (st_filter_prefix nx (pure_map p) tt s l v s' tt E) as R. rewrite filter_acc_pure in R.
    apply R. unfold pure_map. simpl. rewrite P. reflexivity.
  Qed.

  (** C14, predicates with captured variables. *)
  Theorem C14_filter_stateful {C} (p : C -> T -> bool * C) c s l e :
    yields nx s l e -> yields (next (st_filter nx p)) (ofIter (s, c)) (fst (filter_acc p c l)) e.
  Proof. exact (st_filter_yields nx p c s l e). Qed.

  (** C15. Reduce without identity. *)
  Theorem C15_reduce_empty (f : T -> T -> T) s :
    yields nx s [] EOI -> yields (next (st_reduce nx f [])) (ofIter (false, s)) [] EOI.
  Proof. exact (reduce_empty nx f s). Qed.
  Theorem C15_reduce (f : T -> T -> T) s x l :
    yields nx s (x :: l) EOI -> yields (next (st_reduce nx f [])) (ofIter (false, s)) [fold_left f l x] EOI.
  Proof. exact (reduce_noid nx f s x l). Qed.
  (** C15. Reduce with identity, also on the empty source. *)
  Theorem C15_reduce_identity (f : T -> T -> T) id ids s l :
    yields nx s l EOI -> yields (next (st_reduce nx f (id :: ids))) (ofIter (false, s)) [fold_left f l id] EOI.
  Proof. exact (reduce_id nx f id ids s l). Qed.
  Theorem C15_reduce_error (f : T -> T -> T) ids s l e :
    yields nx s l e -> e <> EOI -> yields (next (st_reduce nx f ids)) (ofIter (false, s)) [] e.
  Proof. exact (reduce_err nx f ids s l e). Qed.
  (** C15. ReduceTo. *)
  Theorem C15_reduce_to_empty {U} `{Zero U} (f : U -> T -> U) s :
    yields nx s [] EOI -> yields (next (st_reduce_to nx f [])) (ofIter (false, s)) [] EOI.
  Proof. exact (reduce_to_empty nx f s). Qed.
  Theorem C15_reduce_to {U} `{Zero U} (f : U -> T -> U) s x l :
    yields nx s (x :: l) EOI -> yields (next (st_reduce_to nx f [])) (ofIter (false, s)) [fold_left f (x :: l) zv] EOI.
  Proof. exact (reduce_to_zero nx f s x l). Qed.
  Theorem C15_reduce_to_identity {U} `{Zero U} (f : U -> T -> U) id ids s l :
    yields nx s l EOI -> yields (next (st_reduce_to nx f (id :: ids))) (ofIter (false, s)) [fold_left f l id] EOI.
  Proof. exact (reduce_to_id nx f id ids s l). Qed.
  Theorem C15_reduce_to_error {U} `{Zero U} (f : U -> T -> U) ids s l e :
    yields nx s l e -> e <> EOI -> yields (next (st_reduce_to nx f ids)) (ofIter (false, s)) [] e.
  Proof. exact (reduce_to_err nx f ids s l e). Qed.

  (** C16. Finite sources. *)
  Theorem C16_all_match (p : T -> bool) s l :
    yields nx s l EOI -> yields (next (st_all_match nx p)) (ofIter (false, s)) [forallb p l] EOI.
  Proof.
    intros Y. pose proof (bool_yields nx p false s l Y) as R.
    replace (forallb p l) with (if existsb (fun x => Bool.eqb (p x) false) l then false else negb false); [exact R|].
    clear. induction l as [|x l IH]; simpl; auto. destruct (p x); simpl; auto.
  Qed.
  Theorem C16_any_match (p : T -> bool) s l :
    yields nx s l EOI -> yields (next (st_any_match nx p)) (ofIter (false, s)) [existsb p l] EOI.
  Proof.
    intros Y. pose proof (bool_yields nx p true s l Y) as R.
    replace (existsb p l) with (if existsb (fun x => Bool.eqb (p x) true) l then true else negb true); [exact R|].
    clear. induction l as [|x l IH]; simpl; auto. destruct (p x); simpl; auto.
  Qed.
  Theorem C16_none_match (p : T -> bool) s l :
    yields nx s l EOI -> yields (next (st_none_match nx p)) (ofIter (false, s)) [negb (existsb p l)] EOI.
  Proof.
    intros Y. pose proof (bool_yields nx (fun t => negb (p t)) false s l Y) as R.
    replace (negb (existsb p l)) with (if existsb (fun x => Bool.eqb (negb (p x)) false) l then false else negb false); [exact R|].
    clear. induction l as [|x l IH]; simpl; auto. destruct (p x); simpl; auto.
  Qed.

  (** C16. Any source, infinite ones included: at the first decisive value [v] the answer is returned and nothing
      behind [v] has been pulled. *)
  Theorem C16_all_match_stops (p : T -> bool) s l v s' :
    emits nx s (l ++ [v]) s' -> Forall (fun x => p x = true) l -> p v = false ->
    returns (next (st_all_match nx p)) (ofIter (false, s)) (false, None) (ofIter (true, s')).
  Proof.
    intros E F P. apply next_value, (bool_stop nx p true false s l v s'); auto.
    eapply Forall_impl; [|exact F]. simpl. congruence.
  Qed.
  Theorem C16_any_match_stops (p : T -> bool) s l v s' :
    emits nx s (l ++ [v]) s' -> Forall (fun x => p x = false) l -> p v = true ->
    returns (next (st_any_match nx p)) (ofIter (false, s)) (true, None) (ofIter (true, s')).
  Proof.
    intros E F P. apply next_value, (bool_stop nx p false true s l v s'); auto.
    eapply Forall_impl; [|exact F]. simpl. congruence.
  Qed.
  Theorem C16_none_match_stops (p : T -> bool) s l v s' :
    emits nx s (l ++ [v]) s' -> Forall (fun x => p x = false) l -> p v = true ->
    returns (next (st_none_match nx p)) (ofIter (false, s)) (false, None) (ofIter (true, s')).
  Proof.
    intros E F P. apply next_value, (bool_stop nx (fun t => negb (p t)) true false s l v s'); auto.
    - eapply Forall_impl; [|exact F]. simpl. intros a ->. discriminate.
    - rewrite P. reflexivity.
  Qed.
  (** C16. A source error before any decisive value is returned. *)
  Theorem C16_match_error (p : T -> bool) ident stop s l s1 e s2 :
    emits nx s l s1 -> fails nx s1 e s2 -> e <> EOI -> Forall (fun x => p x <> stop) l ->
    yields (next (st_reduce_bool nx p ident stop)) (ofIter (false, s)) [] e.
  Proof. intros. eapply ofIter_yields; [constructor|]. eapply bool_err; eauto. Qed.

  (** C17. ReduceToSlice. *)
  Theorem C17_to_slice s l : yields nx s l EOI -> yields (next (st_to_slice nx)) (ofIter (false, s)) [l] EOI.
  Proof. exact (to_slice_yields nx s l). Qed.
  Theorem C17_to_slice_error s l e :
    yields nx s l e -> e <> EOI -> yields (next (st_to_slice nx)) (ofIter (false, s)) [] e.
  Proof. exact (to_slice_yields_err nx s l e). Qed.
  (** C17. Round trip. *)
  Theorem C17_round_trip s l : yields nx s l EOI ->
    yields (next (st_expand_slices (next (st_to_slice nx)))) (ofIter ([], 0, ofIter (false, s))) l EOI.
  Proof.
    intros Y. pose proof (expand_yields (next (st_to_slice nx)) _ _ _ (to_slice_yields nx s l Y)) as R.
    simpl in R. rewrite app_nil_r in R. exact R.
  Qed.

  (** C18. The slice with its first values replaced is what Next returns and what the caller's slice holds afterwards
      (third component of the state). *)
  Theorem C18_into_slice slc s l s1 s2 : emits nx s l s1 -> fails nx s1 EOI s2 -> length l <= length slc ->
    returns (next (st_into_slice nx)) (ofIter (false, 0, slc, s)) (l ++ skipn (length l) slc, None)
      (ofIter (true, length l, l ++ skipn (length l) slc, s2)) /\
    yields (next (st_into_slice nx)) (ofIter (false, 0, slc, s)) [l ++ skipn (length l) slc] EOI.
  Proof.
    intros. split; [apply next_value, into_eoi with (s1 := s1); auto|].
    eapply one_shot with (st2 := (true, length l, l ++ skipn (length l) slc, s2)); [eapply into_eoi; eauto|].
    exists [], 0. reflexivity.
  Qed.
  (** C18. On an error of the source every element of the caller's slice is zeroed, written or not. *)
  Theorem C18_into_slice_error slc s l s1 e s2 :
    emits nx s l s1 -> fails nx s1 e s2 -> e <> EOI -> length l <= length slc ->
    returns (next (st_into_slice nx)) (ofIter (false, 0, slc, s)) ([], Some e)
      (dead (true, length l, repeat zv (length slc), s2) e) /\
    stuck (next (st_into_slice nx)) (dead (true, length l, repeat zv (length slc), s2) e) e.
  Proof.
    intros. assert (Q : map (fun _ : T => zv) slc = repeat zv (length slc)) by (clear; induction slc; simpl; congruence).
    split; [|apply dead_stuck]. rewrite <- Q. apply next_error, into_err with (s1 := s1); auto.
  Qed.
  (** C18. One value too many: panic (and not a silent truncation). *)
  Theorem C18_into_slice_overrun slc s l v s' : emits nx s (l ++ [v]) s' -> length l = length slc ->
    panics (next (st_into_slice nx)) (ofIter (false, 0, slc, s)).
  Proof.
    intros E L. apply next_panics. exact (into_panic nx slc s l v s' E L).
  Qed.

  (** C19. Skip. *)
  Theorem C19_skip k s l e : yields nx s l e -> yields (next (st_skip nx)) (ofIter (k, s)) (skipn k l) e.
  Proof. exact (skip_yields nx k s l e). Qed.
  Theorem C19_skip_lazy k s l s' : emits nx s l s' -> k < length l ->
    emits (next (st_skip nx)) (ofIter (k, s)) (skipn k l) (ofIter (0, s')).
  Proof. exact (skip_emits nx k s l s'). Qed.
  (** C19. Limit, the source having at least k values: k values, then EOI with the source still just behind the k-th. *)
  Theorem C19_limit k s l s' : emits nx s l s' -> length l = k ->
    emits (next (st_limit nx)) (ofIter (k, s)) l (ofIter (0, s')) /\
    returns (next (st_limit nx)) (ofIter (0, s')) (zv, Some EOI) (dead (0, s') EOI) /\
    stuck (next (st_limit nx)) (dead (0, s') EOI) EOI.
  Proof. exact (limit_stops nx k s l s'). Qed.
  (** C19. Limit on finite sources: firstn, and the source's own error when it ends first. *)
  Theorem C19_limit_take k s l e : yields nx s l e ->
    yields (next (st_limit nx)) (ofIter (k, s)) (firstn k l) (if length l <? k then e else EOI).
  Proof.
    intros Y. destruct (Nat.ltb_spec (length l) k).
    - rewrite firstn_all2 by lia. apply limit_short; auto.
    - destruct Y as (s1 & E & K). rewrite <- (firstn_skipn k l) in E. apply emits_app_inv in E as (s2 & E1 & E2).
      destruct (limit_stops nx k s (firstn k l) s2 E1) as (A & B & C). { rewrite firstn_length. lia. }
      eexists. split; [exact A|]. econstructor; eauto.
  Qed.

  (** C20. Distinct. *)
  Theorem C20_distinct (eqb : T -> T -> bool) s l e : eq_decides eqb -> yields nx s l e ->
    yields (next (st_distinct nx eqb)) (ofIter (s, [])) (firsts eqb [] l) e.
  Proof.
    intros Eq Y. pose proof (st_filter_yields nx (distinct_cb eqb) [] s l e Y) as R.
    rewrite (distinct_spec eqb Eq l [] []) in R; [exact R|]. reflexivity.
  Qed.
  (** C20. Each different value once. *)
  Theorem C20_distinct_once (eqb : T -> T -> bool) l : eq_decides eqb ->
    NoDup (firsts eqb [] l) /\ forall x, In x (firsts eqb [] l) <-> In x l.
  Proof. intros Eq. destruct (firsts_facts eqb Eq l []) as [A B]. split; auto. intros x. rewrite B. simpl. tauto. Qed.
  (** C20. Duplicate. *)
  Theorem C20_duplicate (eqb : T -> T -> bool) s l e : eq_decides eqb -> yields nx s l e ->
    yields (next (st_duplicate nx eqb)) (ofIter (s, [])) (seconds eqb [] l) e.
  Proof.
    intros Eq Y. pose proof (st_filter_yields nx (duplicate_cb eqb) [] s l e Y) as R.
    rewrite (duplicate_spec eqb Eq l [] []) in R; [exact R|]. reflexivity.
  Qed.
  Theorem C20_duplicate_once (eqb : T -> T -> bool) l : eq_decides eqb ->
    NoDup (seconds eqb [] l) /\ forall x, In x (seconds eqb [] l) <-> 2 <= count_of eqb x l.
  Proof.
    intros Eq. destruct (seconds_facts eqb Eq l []) as [A B]. split; auto. intros x. rewrite B.
    unfold count_of at 1 2. simpl. lia.
  Qed.

  (** C21. Reverse. *)
  Theorem C21_reverse s l : yields nx s l EOI ->
    exists x, constructs (st_reverse nx) s x /\ yields (eager_next x) (eager_init x) (rev l) EOI.
  Proof. intros. eexists. split; [apply reverse_ok; eauto|apply eager_slice_yields]. Qed.
  Theorem C21_reverse_error s l e : yields nx s l e -> e <> EOI ->
    exists x, constructs (st_reverse nx) s x /\ yields (eager_next x) (eager_init x) [] e.
  Proof. intros. eexists. split; [eapply reverse_err; eauto|apply eager_error_yields]. Qed.
  (** C21. Sorts. *)
  Theorem C21_sort less sort s l : sorts less sort -> yields nx s l EOI ->
    exists x out, constructs (st_sort nx sort) s x /\ yields (eager_next x) (eager_init x) out EOI /\
      Permutation l out /\ StronglySorted (fun a b => less b a = false) out.
  Proof.
    intros So Y. exists (EagerSlice (sort l)), (sort l). destruct (So l).
    split; [apply sort_ok; auto|]. split; [apply eager_slice_yields|]. auto.
  Qed.
  Theorem C21_sort_error sort s l e : yields nx s l e -> e <> EOI ->
    exists x, constructs (st_sort nx sort) s x /\ yields (eager_next x) (eager_init x) [] e.
  Proof. intros. eexists. split; [eapply sort_err; eauto|apply eager_error_yields]. Qed.

  (** C22. Count (an int: exact below 2^63 values). *)
  Theorem C22_count s l : yields nx s l EOI ->
    yields (next (st_count nx)) (ofIter (false, s)) [wrapS 64 (Z.of_nat (length l))] EOI.
  Proof.
    intros Y. pose proof (reduce_to_id nx (fun c (_ : T) => wrapS 64 (c + 1)) 0%Z [] s l Y) as R.
    pose proof (count_fold l 0) as Q. change (wrapS 64 0) with 0%Z in Q. rewrite Q in R. exact R.
  Qed.
  Theorem C22_count_exact s l : yields nx s l EOI -> (Z.of_nat (length l) < 2 ^ 63)%Z ->
    yields (next (st_count nx)) (ofIter (false, s)) [Z.of_nat (length l)] EOI.
  Proof.
    intros Y H. pose proof (C22_count s l Y) as R. rewrite wrap64_id in R; [exact R|].
    change (2 ^ 63)%Z with 9223372036854775808%Z in H. lia.
  Qed.
  (** C22. Max and Min. *)
  Theorem C22_max ltb s x l : strict_total ltb -> yields nx s (x :: l) EOI ->
    exists m, yields (next (st_max nx ltb)) (ofIter (false, s)) [m] EOI /\
      In m (x :: l) /\ forall y, In y (x :: l) -> ltb m y = false.
  Proof. intros O Y. eexists. split; [apply reduce_noid; eauto|]. exact (max_fold ltb O l x). Qed.
  Theorem C22_min ltb s x l : strict_total ltb -> yields nx s (x :: l) EOI ->
    exists m, yields (next (st_min nx ltb)) (ofIter (false, s)) [m] EOI /\
      In m (x :: l) /\ forall y, In y (x :: l) -> ltb y m = false.
  Proof. intros O Y. eexists. split; [apply reduce_noid; eauto|]. exact (min_fold ltb O l x). Qed.
  Theorem C22_max_min_empty ltb s : yields nx s [] EOI ->
    yields (next (st_max nx ltb)) (ofIter (false, s)) [] EOI /\ yields (next (st_min nx ltb)) (ofIter (false, s)) [] EOI.
  Proof. intros. split; apply reduce_empty; auto. Qed.
End C13_23.

(** C17. ExpandSlices. *)
Theorem C17_expand_slices {S T} `{Zero T} (nx : stepfn S (list T)) s ls e :
  yields nx s ls e -> yields (next (st_expand_slices nx)) (ofIter ([], 0, s)) (concat ls) e.
Proof. exact (expand_yields nx s ls e). Qed.

(** C22. Sum of integers of a given type: the sum reduced to the type, the exact sum when it fits. *)
Theorem C22_sum {S} (k : ikind) (nx : stepfn S Z) s x l : in_type k x -> yields nx s (x :: l) EOI ->
  yields (next (st_sum k nx)) (ofIter (false, s)) [cast k (zsum (x :: l))] EOI.
Proof.
  intros Hx Y. pose proof (reduce_noid nx (fun a b => cast k (a + b)) s x l Y) as R. rewrite sum_fold' in R by auto. exact R.
Qed.
Theorem C22_sum_exact {S} (k : ikind) (nx : stepfn S Z) s x l :
  in_type k x -> in_type k (zsum (x :: l)) -> yields nx s (x :: l) EOI ->
  yields (next (st_sum k nx)) (ofIter (false, s)) [zsum (x :: l)] EOI.
Proof. intros Hx Hs Y. rewrite <- (cast_id k (zsum (x :: l)) Hs). apply C22_sum; auto. Qed.
Theorem C22_sum_empty {S} (k : ikind) (nx : stepfn S Z) s : yields nx s [] EOI ->
  yields (next (st_sum k nx)) (ofIter (false, s)) [] EOI.
Proof. intros. apply reduce_empty; auto. Qed.

(** C23. AvgInt: the rounded mean, except for means in (-1, -1/2]. *)
Theorem C23_avg_int {S} (k : ikind) (nx : stepfn S Z) s l :
  is_signed k = true -> Forall (in_type k) l -> sums_fit k l -> l <> [] -> (Z.of_nat (length l) < 2 ^ 63)%Z ->
  ~ bad_div (zsum l) (Z.of_nat (length l)) -> yields nx s l EOI ->
  exists avg, yields (next (st_avg_int k nx)) (ofIter s) [avg] EOI /\ rounds_to (zsum l) (Z.of_nat (length l)) avg.
Proof.
  intros. exists (rq (zsum l) (Z.of_nat (length l))). split; [apply avg_int_ok; auto|].
  apply rq_rounds; auto. destruct l; [congruence|simpl; lia].
Qed.
(** C23 finding: for those means AvgInt yields 1 instead of -1. *)
Theorem C23_avg_int_wrong {S} (k : ikind) (nx : stepfn S Z) s l :
  is_signed k = true -> Forall (in_type k) l -> sums_fit k l -> l <> [] -> (Z.of_nat (length l) < 2 ^ 63)%Z ->
  bad_div (zsum l) (Z.of_nat (length l)) -> yields nx s l EOI ->
  yields (next (st_avg_int k nx)) (ofIter s) [1%Z] EOI /\ rounds_to (zsum l) (Z.of_nat (length l)) (-1).
Proof.
  intros Hk F Sf Ne L B Y. assert (D : Z.of_nat (length l) <> 0%Z) by (destruct l; [congruence|simpl; lia]). split.
  - rewrite <- (rq_bad (zsum l) (Z.of_nat (length l))); auto. apply avg_int_ok; auto.
  - destruct B as (B1 & B2 & B3). unfold rounds_to. assert (zsum l < 0)%Z by nia. lia.
Qed.
(** C23. AvgUint. *)
Theorem C23_avg_uint {S} (k : ikind) (nx : stepfn S Z) s l :
  is_signed k = false -> Forall (in_type k) l -> sums_fit k l -> l <> [] -> (Z.of_nat (length l) < 2 ^ 64)%Z ->
  yields nx s l EOI ->
  exists avg, yields (next (st_avg_uint k nx)) (ofIter s) [avg] EOI /\ rounds_to (zsum l) (Z.of_nat (length l)) avg.
Proof.
  intros Hk F Sf Ne L Y. exists (rq (zsum l) (Z.of_nat (length l))). split; [apply avg_uint_ok; auto|].
  apply rq_rounds; auto. { destruct l; [congruence|simpl; lia]. }
  intros (B1 & _). pose proof (sums_fit_in k l Sf) as I. unfold in_type in I. rewrite Hk in I. nia.
Qed.
(** C23. The first running sum outside the type: overflow (underflow for a negative one). *)
Theorem C23_avg_int_overflow {S} (k : ikind) (nx : stepfn S Z) s l v s' :
  is_signed k = true -> Forall (in_type k) (l ++ [v]) -> sums_fit k l ->
  (Z.of_nat (length l) < 2 ^ 63)%Z -> ~ in_type k (zsum (l ++ [v])) -> emits nx s (l ++ [v]) s' ->
  returns (next (st_avg_int k nx)) (ofIter s)
    (0%Z, Some (if (0 <=? zsum (l ++ [v]))%Z then OverflowErr else UnderflowErr))
    (dead s' (if (0 <=? zsum (l ++ [v]))%Z then OverflowErr else UnderflowErr)).
Proof. exact (avg_int_overflow nx k s l v s'). Qed.
Theorem C23_avg_uint_overflow {S} (k : ikind) (nx : stepfn S Z) s l v s' :
  is_signed k = false -> Forall (in_type k) (l ++ [v]) -> sums_fit k l ->
  (Z.of_nat (length l) < 2 ^ 64)%Z -> ~ in_type k (zsum (l ++ [v])) -> emits nx s (l ++ [v]) s' ->
  returns (next (st_avg_uint k nx)) (ofIter s) (0%Z, Some OverflowErr) (dead s' OverflowErr).
Proof. exact (avg_uint_overflow nx k s l v s'). Qed.
Theorem C23_avg_empty {S} (k : ikind) (nx : stepfn S Z) s : yields nx s [] EOI ->
  yields (next (st_avg_int k nx)) (ofIter s) [] EOI /\ yields (next (st_avg_uint k nx)) (ofIter s) [] EOI.
Proof. intros. split; [apply avg_empty|apply avg_uempty]; auto. Qed.

(** C64. ReduceToMap: the map in which the last pair for each key wins; ExpandMaps: the entries of each map in
    turn. *)
Theorem C64_to_map {S K V} `{Zero K} `{Zero V} (eqb : K -> K -> bool) (nx : stepfn S (K * V)) s l :
  eq_decides eqb -> yields nx s l EOI ->
  exists m, yields (next (st_to_map eqb nx)) (ofIter (false, s)) [m] EOI /\ mok m /\
    forall k, mget eqb m k = last_value eqb l k.
Proof. intros Eq. exact (to_map_yields eqb Eq nx s l). Qed.
Theorem C64_to_map_error {S K V} `{Zero K} `{Zero V} (eqb : K -> K -> bool) (nx : stepfn S (K * V)) s l e :
  yields nx s l e -> e <> EOI -> yields (next (st_to_map eqb nx)) (ofIter (false, s)) [] e.
Proof. exact (to_map_err eqb nx s l e). Qed.
Theorem C64_expand_maps {S K V} `{Zero K} `{Zero V} (nilK : K -> bool) (nilV : V -> bool)
  (nx : stepfn S (list (K * V))) s ls e :
  yields nx s ls e -> Forall (fun kv => nilK (fst kv) = false /\ nilV (snd kv) = false) (concat ls) ->
  yields (next (st_expand_maps nilK nilV nx)) (ofIter (None, s)) (concat ls) e.
Proof. exact (expand_maps_yields nilK nilV nx s ls e). Qed.

(** C65. Generator: every application to a non-nil iterator asks the generator for a new transform, whatever
    iterators came before. *)
Theorem C65_generator_fresh {W F} (gen : W -> F * W) fn w :
  generator gen (fn, w) false = Done (fst (gen w), (Some (fst (gen w)), snd (gen w))).
Proof. exact (generator_fresh gen fn w). Qed.
(** C65. Hence n applications call it n times. *)
Theorem C65_generator_count {W F} (gen : W -> F * W) n fn w :
  exists fs fn', Nat.iter n (fun r => obind r (fun '(fs, st) =>
      obind (generator gen st false) (fun '(f, st') => Done (fs ++ [f], st')))) (Done ([], (fn, w)))
    = Done (fs, (fn', Nat.iter n (fun w => snd (gen w)) w)) /\
    fs = map (fun i => fst (gen (Nat.iter i (fun w => snd (gen w)) w))) (seq 0 n).
Proof.
  induction n as [|n (fs & fn' & IH & ->)]; [exists [], fn; auto|].
  eexists _, _. cbn [Nat.iter nat_rect]. split.
  - unfold Nat.iter in IH at 1. cbn in IH. rewrite IH. cbn [obind]. rewrite generator_fresh. cbn [obind]. reflexivity.
  - rewrite seq_S, map_app. reflexivity.
Qed.

Print Assumptions C13_map. Print Assumptions C13_map_lazy. Print Assumptions C13_map_stateful.
Print Assumptions C13_map_error_ok. Print Assumptions C13_map_error_reject. Print Assumptions C13_peek.
Print Assumptions C13_peek_lazy. Print Assumptions C14_filter. Print Assumptions C14_filter_lazy.
Print Assumptions C14_filter_stateful. Print Assumptions C15_reduce_empty. Print Assumptions C15_reduce.
Print Assumptions C15_reduce_identity. Print Assumptions C15_reduce_error. Print Assumptions C15_reduce_to_empty.
Print Assumptions C15_reduce_to. Print Assumptions C15_reduce_to_identity. Print Assumptions C15_reduce_to_error.
Print Assumptions C16_all_match. Print Assumptions C16_any_match. Print Assumptions C16_none_match.
Print Assumptions C16_all_match_stops. Print Assumptions C16_any_match_stops. Print Assumptions C16_none_match_stops.
Print Assumptions C16_match_error. Print Assumptions C17_to_slice. Print Assumptions C17_to_slice_error.
Print Assumptions C17_round_trip. Print Assumptions C17_expand_slices. Print Assumptions C18_into_slice.
Print Assumptions C18_into_slice_error. Print Assumptions C18_into_slice_overrun. Print Assumptions C19_skip.
Print Assumptions C19_skip_lazy. Print Assumptions C19_limit. Print Assumptions C19_limit_take.
Print Assumptions C20_distinct. Print Assumptions C20_distinct_once. Print Assumptions C20_duplicate.
Print Assumptions C20_duplicate_once. Print Assumptions C21_reverse. Print Assumptions C21_reverse_error.
Print Assumptions C21_sort. Print Assumptions C21_sort_error. Print Assumptions C22_count.
Print Assumptions C22_count_exact. Print Assumptions C22_max. Print Assumptions C22_min.
Print Assumptions C22_max_min_empty. Print Assumptions C22_sum. Print Assumptions C22_sum_exact.
Print Assumptions C22_sum_empty. Print Assumptions C23_avg_int. Print Assumptions C23_avg_int_wrong.
Print Assumptions C23_avg_uint. Print Assumptions C23_avg_int_overflow. Print Assumptions C23_avg_uint_overflow.
Print Assumptions C23_avg_empty. Print Assumptions C64_to_map. Print Assumptions C64_to_map_error.
Print Assumptions C64_expand_maps. Print Assumptions C65_generator_fresh. Print Assumptions C65_generator_count.

(** ** Non-vacuity: the sources below are real iterators, and the runs are computed. *)
Definition src3 := next (slice_gen [3; 1; 3]%Z).
Lemma src3_yields : yields src3 (ofIter 0) [3; 1; 3]%Z EOI.
Proof. apply slice_yields. Qed.
(** a source that fails after two values *)
Definition bad2 := next (set_error_gen (next (slice_gen [3; 1]%Z)) (UserErr 4)).
Lemma bad2_yields : yields bad2 (ofIter (ofIter 0)) [3; 1]%Z (UserErr 4).
Proof. apply set_error_yields with (e0 := EOI), slice_yields. Qed.
(** an infinite source: 1, 2, 3, ... *)
Definition inf1 := next (infinite_gen (pure_cb (fun x => x + 1)%Z)).
Lemma inf1_emits n : emits inf1 (ofIter (infinite_init [] tt)) (map (fun i => Nat.iter (S i) (fun x => x + 1)%Z 0%Z) (seq 0 n))
  (ofIter ([], Nat.iter n (fun x => x + 1)%Z 0%Z, tt)).
Proof. apply (infinite_unseeded (fun x => x + 1)%Z n). Qed.

Example C13_nonvacuous : yields (next (st_map bad2 (pure_map (Z.mul 2)))) (ofIter (ofIter (ofIter 0), tt)) [6; 2]%Z (UserErr 4).
Proof. exact (C13_map bad2 (Z.mul 2) _ _ _ bad2_yields). Qed.
Example C13_nonvacuous_reject :
  let f (c : unit) (x : Z) : ret Z * unit := if (x =? 2)%Z then ((0%Z, Some (UserErr 1)), tt) else ((x, None), tt) in
  emits inf1 (ofIter (infinite_init [] tt)) ([1] ++ [2])%Z (ofIter ([], 2, tt)%Z) /\
  Forall (fun r => snd r = None) (fst (map_acc f tt [1]%Z)) /\ f (snd (map_acc f tt [1]%Z)) 2%Z = ((0%Z, Some (UserErr 1)), tt).
Proof. cbn zeta. split; [exact (inf1_emits 2)|]. split; [repeat constructor|reflexivity]. Qed.
Example C14_nonvacuous : emits inf1 (ofIter (infinite_init [] tt)) ([1; 2; 3] ++ [4])%Z (ofIter ([], 4, tt)%Z) /\ Z.even 4 = true.
Proof. split; [exact (inf1_emits 4)|reflexivity]. Qed.
Example C15_nonvacuous : yields (next (st_reduce src3 Z.sub [])) (ofIter (false, ofIter 0)) [-1]%Z EOI.
Proof. exact (C15_reduce src3 Z.sub _ _ _ src3_yields). Qed.
Example C16_nonvacuous : returns (next (st_any_match inf1 (fun x => 3 <? x)%Z)) (ofIter (false, ofIter (infinite_init [] tt)))
  (true, None) (ofIter (true, ofIter ([], 4, tt)%Z)).
Proof. apply C16_any_match_stops with (l := [1; 2; 3]%Z) (v := 4%Z); [exact (inf1_emits 4)|repeat constructor|reflexivity]. Qed.
Example C17_nonvacuous : yields (next (st_expand_slices (next (slice_gen [[1]; []; [2; 3]]%Z)))) (ofIter ([], 0, ofIter 0)) [1; 2; 3]%Z EOI.
Proof. exact (C17_expand_slices _ _ [[1]; []; [2; 3]]%Z EOI (slice_yields _)). Qed.
Example C18_nonvacuous :
  obind (next (st_into_slice src3) 10 (ofIter (false, 0, [7; 8; 9; 10; 11]%Z, ofIter 0))) (fun r => Done (fst r))
    = Done ([3; 1; 3; 10; 11]%Z, None) /\
  next (st_into_slice src3) 10 (ofIter (false, 0, [7; 8]%Z, ofIter 0)) = Panicked.
Proof. split; reflexivity. Qed.
Example C19_nonvacuous : emits (next (st_limit inf1)) (ofIter (3, ofIter (infinite_init [] tt))) [1; 2; 3]%Z (ofIter (0, ofIter ([], 3, tt)%Z)).
Proof. apply (C19_limit inf1 3 _ [1; 2; 3]%Z); [exact (inf1_emits 3)|reflexivity]. Qed.
Example C20_nonvacuous : eq_decides Z.eqb /\ firsts Z.eqb [] [3; 1; 3; 2; 1; 3]%Z = [3; 1; 2]%Z /\
  seconds Z.eqb [] [3; 1; 3; 2; 1; 3]%Z = [3; 1]%Z.
Proof. split; [exact Z.eqb_eq|]. split; reflexivity. Qed.

(** a sorting function exists: insertion sort on Z *)
Fixpoint insert_z (x : Z) (l : list Z) : list Z :=
  match l with [] => [x] | y :: r => if (x <=? y)%Z then x :: l else y :: insert_z x r end.
Definition sort_z (l : list Z) : list Z := fold_right insert_z [] l.
Lemma insert_z_perm x l : Permutation (x :: l) (insert_z x l).
Proof. induction l as [|y l IH]; simpl; auto. destruct (x <=? y)%Z; auto. rewrite perm_swap. auto. Qed.
Lemma insert_z_sorted x l : StronglySorted (fun a b => (b <? a)%Z = false) l ->
  StronglySorted (fun a b => (b <? a)%Z = false) (insert_z x l).
Proof.
  induction 1 as [|y l Sl IH F]; simpl; [repeat constructor|]. destruct (Z.leb_spec x y).
  - constructor; [constructor; auto|]. constructor; [apply Z.ltb_ge; lia|].
    eapply Forall_impl; [|exact F]. simpl. intros a Ha. apply Z.ltb_ge in Ha. apply Z.ltb_ge. lia.
  - constructor; auto. apply Forall_forall. intros a Ha.
    apply (Permutation_in _ (Permutation_sym (insert_z_perm x l))) in Ha. destruct Ha as [<-|Ha]; [apply Z.ltb_ge; lia|].
    rewrite Forall_forall in F. auto.
Qed.
Example C21_nonvacuous : sorts Z.ltb sort_z /\ sort_z [3; 1; 2; 1]%Z = [1; 1; 2; 3]%Z.
Proof.
  split; [|reflexivity]. intros l. induction l as [|x l [P Q]]; simpl; [split; constructor|]. split.
  - rewrite <- insert_z_perm. auto.
  - apply insert_z_sorted. exact Q.
Qed.
Example C22_nonvacuous : strict_total Z.ltb /\
  yields (next (st_sum KInt8 (next (slice_gen [100; 100]%Z)))) (ofIter (false, ofIter 0)) [-56]%Z EOI.
Proof.
  split.
  - repeat split.
    + apply Z.ltb_irrefl.
    + intros a b c A B. apply Z.ltb_lt in A, B. apply Z.ltb_lt. lia.
    + intros a b. destruct (Ztrichotomy a b) as [|[|]]; [left; apply Z.ltb_lt; lia|auto|right; right; apply Z.ltb_lt; lia].
  - exact (C22_sum KInt8 _ (ofIter 0) 100%Z [100]%Z ltac:(unfold in_type; cbn; lia) (slice_yields _)).
Qed.
(** mean -2/3: AvgInt yields 1 *)
Example C23_nonvacuous : bad_div (zsum [-1; -1; 0]%Z) 3 /\
  yields (next (st_avg_int KInt (next (slice_gen [-1; -1; 0]%Z)))) (ofIter (ofIter 0)) [1]%Z EOI.
Proof.
  split; [unfold bad_div; cbn; lia|].
  refine (proj1 (C23_avg_int_wrong KInt _ (ofIter 0) [-1; -1; 0]%Z eq_refl _ _ _ _ _ (slice_yields _))).
  - repeat constructor; unfold in_type; cbn; lia.
  - intros l1 l2 E. assert (L : In l1 [[]; [-1]; [-1; -1]; [-1; -1; 0]]%Z).
    { destruct l1 as [|a [|b [|c [|d l]]]]; cbn in E; inversion E; subst; cbn; auto. }
    cbn in L. destruct L as [<-|[<-|[<-|[<-|[]]]]]; unfold in_type; cbn; lia.
  - discriminate.
  - cbn; lia.
  - unfold bad_div; cbn; lia.
Qed.
Example C23_nonvacuous_overflow : Forall (in_type KInt8) ([100] ++ [50])%Z /\ ~ in_type KInt8 (zsum ([100] ++ [50])%Z).
Proof. split; [repeat constructor; unfold in_type; cbn; lia|unfold in_type; cbn; lia]. Qed.
Example C64_nonvacuous :
  obind (next (st_to_map Z.eqb (next (slice_gen [(1, 10); (2, 20); (1, 30)]%Z))) 10 (ofIter (false, ofIter 0))) (fun r => Done (fst r))
  = Done ([(1, 30); (2, 20)]%Z, None).
Proof. reflexivity. Qed.
Example C65_nonvacuous : generator (fun w => (w, w + 1)) (Some 5, 7) false = Done (7, (Some 7, 8)).
Proof. reflexivity. Qed.

(** C31. The stream transform Abs on a signed integer type: absolute values in order ... *)
Lemma abs_cb_value k v : is_signed k = true -> in_type k v -> v <> min_of k -> abs_cb k tt v = ((Z.abs v, None), tt).
Proof.
  intros Sg T N. unfold abs_cb. destruct (v <? 0)%Z eqn:C; [|apply Z.ltb_ge in C; rewrite Z.abs_eq by exact C; reflexivity].
  apply Z.ltb_lt in C.
  rewrite Z.abs_neq by lia. assert (Ca : cast k (- v) = (- v)%Z) by (apply cast_id; unfold in_type, min_of in *; destruct k; cbn in *; try discriminate; lia).
  rewrite Ca. rewrite (proj2 (Z.ltb_ge (- v) 0)) by lia. reflexivity.
Qed.
Lemma abs_cb_list k l : is_signed k = true -> Forall (fun v => in_type k v /\ v <> min_of k) l -> map_acc (abs_cb k) tt l = (map (fun v => (Z.abs v, None)) l, tt).
Proof.
  intros Sg. induction 1 as [|v l (T & N) _ IH]; [reflexivity|]. cbn [map_acc map]. rewrite (abs_cb_value k v Sg T N), IH. reflexivity.
Qed.
Theorem C31_stream_abs {S} (nx : stepfn S Z) k s l e : is_signed k = true -> yields nx s l e -> Forall (fun v => in_type k v /\ v <> min_of k) l ->
  yields (next (st_abs k nx)) (ofIter (s, tt)) (map Z.abs l) e.
Proof.
  intros Sg Y F. pose proof (C13_map_error_ok nx (abs_cb k) tt s l e Y) as R. rewrite (abs_cb_list k l Sg F) in R. cbn [fst] in R.
  rewrite map_map in R. apply R. apply Forall_map. clear. induction l; constructor; auto.
Qed.
Print Assumptions C31_stream_abs.
(** ... and at the least value of the type, which has no absolute value, an error for ever. *)
Theorem C31_stream_abs_min {S} (nx : stepfn S Z) k s l s' : is_signed k = true -> emits nx s (l ++ [min_of k]) s' -> Forall (fun v => in_type k v /\ v <> min_of k) l ->
  exists it, emits (next (st_abs k nx)) (ofIter (s, tt)) (map Z.abs l) it /\
    returns (next (st_abs k nx)) it (zv, Some abs_err) (dead (s', tt) abs_err) /\ stuck (next (st_abs k nx)) (dead (s', tt) abs_err) abs_err.
Proof.
  intros Sg Y F. pose proof (C13_map_error_reject nx (abs_cb k) tt s l (min_of k) s' 0%Z abs_err tt Y) as R. rewrite (abs_cb_list k l Sg F) in R. cbn [fst snd] in R.
  rewrite map_map in R. apply R; [apply Forall_map; clear; induction l; constructor; auto|]. destruct k; try discriminate; vm_compute; reflexivity.
Qed.
Print Assumptions C31_stream_abs_min.
Example C31_stream_nonvacuous : (is_signed KInt8 = true /\ Forall (fun v => in_type KInt8 v /\ v <> min_of KInt8) [-127; 5]%Z) /\
  yields (next (slice_gen [-127; 5]%Z)) (ofIter 0) [-127; 5]%Z EOI.
Proof. split; [split; [reflexivity|repeat constructor; vm_compute; congruence]|]. apply slice_yields. Qed.
