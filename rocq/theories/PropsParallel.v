(** Property theorems C24-C26: Parallel. *)
From Verif Require Import Base Slice Parallel ParallelSpec ParallelFloatProofs ParallelProofs ParallelAnyProofs.
From Coq Require Import ZifyNat.
Ltac Zify.zify_post_hook ::= Z.div_mod_to_equations.
Open Scope nat_scope.

(** C24. For every number of items and every PInfo there are ranges, and they are non-empty, contiguous, in order and
    go from 0 to the number of items. *)
Theorem C24_partition n info : 1 <= n -> pinfo_ok n info ->
  exists rs, generate_ranges n info = Done rs /\ chain 0 rs n.
Proof. exact (generate_ok n info). Qed.
Print Assumptions C24_partition.

(** C24. Such ranges contain every index, and no index twice. *)
Theorem C24_each_index_once n rs i : chain 0 rs n -> i < n ->
  exists! t, exists r, nth_error rs t = Some r /\ fst r <= i < snd r.
Proof.
  intros C Hi. destruct (chain_cover _ _ _ C i ltac:(lia)) as (t & r & E & R). exists t. split; [eauto|].
  intros t' (r' & E' & R'). destruct (Nat.eq_dec t t') as [|N]; auto. exfalso.
  destruct (chain_disjoint _ _ _ C t t' r r' E E' N) as (_ & _ & _ & [D|D]); lia.
Qed.
Print Assumptions C24_each_index_once.

(** C24. Threads N: min(items, max(1, N)) ranges, the first (items mod threads) one item longer than the others. *)
Theorem C24_threads n z : 1 <= n -> pinfo_ok n (PThreads z) ->
  exists long short, generate_ranges n (PThreads z) = Done (long ++ short) /\
    length (long ++ short) = Nat.min n (Z.to_nat (Z.max 1 z)) /\
    Forall (fun r => size r = n / Nat.min n (Z.to_nat (Z.max 1 z)) + 1) long /\
    Forall (fun r => size r = n / Nat.min n (Z.to_nat (Z.max 1 z))) short.
Proof.
  intros Hn (Hb & Hi). cbn [generate_ranges]. pose proof (clamp_bounds n z Hn Hb Hi) as B. destruct (Nat.eqb_spec (clamp n z) 0); [lia|].
  rewrite <- !(clamp_exact n z) by auto. set (t := clamp n z) in *. pose proof (Nat.div_mod n t ltac:(lia)). pose proof (Nat.mod_upper_bound n t ltac:(lia)).
  assert (0 < n / t) by (apply Nat.div_str_pos; lia).
  destruct (thread_loop_ok n (n / t) ltac:(auto) t 0 (n mod t) (S n)) as (rs & E & C & L & pre & post & -> & LP & F1 & F2); try lia.
  exists pre, post. auto.
Qed.
Print Assumptions C24_threads.

(** C24. Items N: every range has min(items, max(1, N)) items, but for a last one with the remaining items. *)
Theorem C24_items n z : 1 <= n -> pinfo_ok n (PItems z) ->
  exists full rest, generate_ranges n (PItems z) = Done (full ++ rest) /\
    Forall (fun r => size r = Nat.min n (Z.to_nat (Z.max 1 z))) full /\ length full = n / Nat.min n (Z.to_nat (Z.max 1 z)) /\
    match rest with
    | [] => n mod Nat.min n (Z.to_nat (Z.max 1 z)) = 0
    | [r] => size r = n mod Nat.min n (Z.to_nat (Z.max 1 z)) /\ 0 < size r
    | _ => False
    end.
Proof.
  intros Hn (Hb & Hi). pose proof (clamp_bounds n z Hn Hb Hi) as B. rewrite <- !(clamp_exact n z) by auto.
  destruct (bucket_ranges_ok n (clamp n z) ltac:(lia)) as (f & r & E & C & F & L & R). exists f, r. split; [exact E|].
  split; [exact F|]. split; [exact L|]. destruct r as [|a [|]]; auto. destruct R as [R1 R2]. split; [exact R1|].
  rewrite R1. exact R2.
Qed.
Print Assumptions C24_items.

(** C24. No PInfo: ranges of b items, b the square root of the number of items rounded to nearest, and a last one with
    the remaining items. *)
Theorem C24_no_info n : (1 <= Z.of_nat n < 2 ^ 50)%Z ->
  exists b full rest, generate_ranges n PNone = Done (full ++ rest) /\
    ((2 * Z.of_nat b - 1) * (2 * Z.of_nat b - 1) <= 4 * Z.of_nat n < (2 * Z.of_nat b + 1) * (2 * Z.of_nat b + 1))%Z /\
    Forall (fun r => size r = b) full /\ length full = n / b /\
    match rest with [] => n mod b = 0 | [r] => size r = n mod b /\ 0 < size r | _ => False end.
Proof.
  intros Hn. pose proof (bucket_size_pos n ltac:(lia)) as B. pose proof (bucket_size_exact n Hn) as X. cbv zeta in X.
  destruct (bucket_ranges_ok n (bucket_size n) B) as (f & r & E & C & F & L & R). exists (bucket_size n), f, r.
  split; [exact E|]. split; [exact X|]. split; [exact F|]. split; [exact L|]. destruct r as [|a [|]]; auto. destruct R as [R1 R2]. split; [exact R1|].
  rewrite R1. exact R2.
Qed.
Print Assumptions C24_no_info.

(** ** C25: every schedule *)

(** Instances of the result for transforms that never return more values than they have read. *)
Section Schedules.
  Context {T U Q : Type} `{ZU : Zero U}.
  Variables (act : Q -> action T U Q) (q0 : Q) (alias : option (U -> T)) (out0 : list T -> list U).
  Variable info : pinfo.
  Hypothesis Hout : forall l, length (out0 l) = length l.

  (** [results input rs res]: what the transform does with each range, on its own. *)
  Definition results (input : list T) (rs : list (nat * nat)) (res : list (list U * err)) : Prop :=
    Forall2 (fun r we => runs act 0 q0 (seg input r) (fst we) (snd we)) rs res.

  (** C25/C26. Whatever the schedule: the error of the lowest-numbered failing worker if there is one, else the
      output slice, each worker's part holding what it returned followed by what was there before. *)
  Theorem C25_result_any_schedule input sched out rs res : pinfo_ok (length input) info ->
    parallel act q0 alias out0 info (input, None) sched out -> 2 <= length input ->
    generate_ranges (length input) info = Done rs -> results input rs res ->
    out = match first_of (map (fun we => err_of (snd we)) res) with
          | Some e => PError e
          | None => PSlice (concat (map (fun p => left_by (seg (out0 input) (fst p)) (fst (snd p)) (snd (snd p))) (combine rs res)))
          end.
  Proof.
    intros Hinfo P L G R. inversion P as [| | |inp ranges sc L' G' g D]; subst; simpl in L; try lia.
    assert (ranges = rs) by congruence. subst ranges.
    destruct (generate_ok (length input) info ltac:(lia) Hinfo) as (rs' & G2 & C). assert (rs' = rs) by congruence. subst rs'.
    destruct (par_final act alias rs (length input) C q0 input (out0 input) res eq_refl (Hout input) R sched D) as [F1 F2].
    unfold g. rewrite F1, F2. rewrite <- (map_map snd (fun e => WDone (err_of e))), first_error_map, map_map. reflexivity.
  Qed.

  (** C25. Two schedules never give different results. *)
  Theorem C25_schedule_independent input sched1 sched2 out1 out2 rs res : pinfo_ok (length input) info ->
    generate_ranges (length input) info = Done rs -> results input rs res ->
    parallel act q0 alias out0 info (input, None) sched1 out1 ->
    parallel act q0 alias out0 info (input, None) sched2 out2 -> out1 = out2.
  Proof.
    intros Hinfo G R P1 P2. destruct (Nat.lt_ge_cases (length input) 2) as [H|H].
    - inversion P1; subst; inversion P2; subst; simpl in *; try lia; reflexivity.
    - rewrite (C25_result_any_schedule _ _ _ _ _ Hinfo P1 H G R), (C25_result_any_schedule _ _ _ _ _ Hinfo P2 H G R). reflexivity.
  Qed.

  (** C25. No worker ever panics, and every schedule that gives each worker enough turns completes. *)
  Theorem C25_no_panic input sched rs res : pinfo_ok (length input) info -> 2 <= length input ->
    generate_ranges (length input) info = Done rs -> results input rs res ->
    ~ In WCrash (fst (grun act alias rs sched (ginit q0 rs (input, out0 input)))).
  Proof.
    intros Hinfo L G R. destruct (generate_ok (length input) info ltac:(lia) Hinfo) as (rs' & G2 & C).
    assert (rs' = rs) by congruence. subst rs'. eapply par_no_crash; eauto.
  Qed.
  Theorem C25_completes input rs res : pinfo_ok (length input) info -> 2 <= length input ->
    generate_ranges (length input) info = Done rs -> results input rs res ->
    exists k, forall sched, (forall t, t < length rs -> k <= count_occ Nat.eq_dec sched t) ->
      exists out, parallel act q0 alias out0 info (input, None) sched out.
  Proof.
    intros Hinfo L G R. destruct (generate_ok (length input) info ltac:(lia) Hinfo) as (rs' & G2 & C).
    assert (rs' = rs) by congruence. subst rs'.
    destruct (par_progress act alias rs (length input) C q0 input (out0 input) res eq_refl (Hout input) R) as [k K].
    exists k. intros sched H. eexists. eapply par_many; eauto.
  Qed.

  (** C25. A worker's step changes nothing outside its own range: no element is ever written by two workers. *)
  Theorem C25_writes_stay_in_range lo hi w m i : lo <= hi -> hi <= length (fst m) -> hi <= length (snd m) -> i < lo \/ hi <= i ->
    nth_error (fst (snd (wstep act alias lo hi w m))) i = nth_error (fst m) i /\
    nth_error (snd (snd (wstep act alias lo hi w m))) i = nth_error (snd m) i.
  Proof.
    intros H1 H2 H3 H. destruct (wstep_frame act alias lo hi w m H1 H2 H3) as (_ & _ & _ & F).
    specialize (F i (i + 1) ltac:(lia)). unfold mseg in F. apply (f_equal (fun p => (nth_error (fst p) 0, nth_error (snd p) 0))) in F.
    cbn [fst snd] in F. rewrite !seg_nth in F. replace (i + 1 - i) with 1 in F by lia. cbn in F. rewrite Nat.add_0_r in F.
    split; congruence.
  Qed.
  (** C25. Nor does it depend on anything outside its own range: in memories that agree on the range it does the same and leaves the
      same there.  So no element is touched by two workers, whatever the order of their steps. *)
  Theorem C25_reads_stay_in_range lo hi w m m' : lo <= hi -> length (fst m) = length (fst m') -> length (snd m) = length (snd m') ->
    hi <= length (fst m) -> hi <= length (snd m) ->
    (forall i, lo <= i < hi -> nth_error (fst m) i = nth_error (fst m') i /\ nth_error (snd m) i = nth_error (snd m') i) ->
    fst (wstep act alias lo hi w m) = fst (wstep act alias lo hi w m') /\
    forall i, lo <= i < hi -> nth_error (fst (snd (wstep act alias lo hi w m))) i = nth_error (fst (snd (wstep act alias lo hi w m'))) i /\
                              nth_error (snd (snd (wstep act alias lo hi w m))) i = nth_error (snd (snd (wstep act alias lo hi w m'))) i.
  Proof.
    intros H L1 L2 H1 H2 A.
    assert (E : mseg m (lo, hi) = mseg m' (lo, hi)).
    { unfold mseg. f_equal; apply list_ext; intros i; rewrite !seg_nth; destruct (Nat.ltb_spec i (hi - lo)); auto; apply (A (lo + i)); lia. }
    destruct (wstep_frame act alias lo hi w m H H1 H2) as (F1 & _).
    destruct (wstep_frame act alias lo hi w m' H ltac:(lia) ltac:(lia)) as (F2 & _).
    rewrite E in F1. rewrite F1 in F2. split; [exact (f_equal fst F2)|]. intros i Hi.
    pose proof (f_equal (fun x => nth_error (fst (snd x)) (i - lo)) F2) as G5.
    pose proof (f_equal (fun x => nth_error (snd (snd x)) (i - lo)) F2) as G6. unfold mseg in G5, G6. cbn [fst snd] in G5, G6. rewrite !seg_nth in G5. rewrite !seg_nth in G6.
    destruct (Nat.ltb_spec (i - lo) (hi - lo)); [|lia]. replace (lo + (i - lo)) with i in G5, G6 by lia. auto.
  Qed.
End Schedules.
Print Assumptions C25_result_any_schedule.
Print Assumptions C25_schedule_independent.
Print Assumptions C25_no_panic.
Print Assumptions C25_completes.
Print Assumptions C25_writes_stay_in_range.
Print Assumptions C25_reads_stay_in_range.

(** ** C25: any transforms *)
Section AnyTransforms.
  Context {T U Q : Type} `{ZU : Zero U}.
  Variables (act : Q -> action T U Q) (q0 : Q) (out0 : list T -> list U) (info : pinfo).
  Hypothesis Hout : forall l, length (out0 l) = length l.
  (** The workers after a schedule. *)
  Notation workers alias rs sched input := (fst (grun act alias rs sched (ginit q0 rs (input, out0 input)))).

  (** C25. Two schedules never give different results, whatever the transforms do. *)
  Theorem C25_deterministic alias input sched1 sched2 out1 out2 : pinfo_ok (length input) info ->
    parallel act q0 alias out0 info (input, None) sched1 out1 ->
    parallel act q0 alias out0 info (input, None) sched2 out2 -> out1 = out2.
  Proof.
    intros Hi P1 P2. inversion P1 as [| | |inp1 rs1 sc1 L1 G1 g1 D1]; subst; inversion P2 as [| | |inp2 rs2 sc2 L2 G2 g2 D2]; subst; simpl in *; try lia; try reflexivity.
    assert (rs2 = rs1) by congruence. subst rs2. destruct (generate_ok (length input) info ltac:(lia) Hi) as (rs' & G' & C).
    assert (rs' = rs1) by congruence. subst rs'.
    pose proof (same_end act alias rs1 (length input) C q0 input (out0 input) eq_refl (Hout input) sched1 sched2 D1 D2) as E.
    unfold gat in E. unfold g1, g2. rewrite E. reflexivity.
  Qed.

  Section Many.
    Variables (alias : option (U -> T)) (input : list T) (rs : list (nat * nat)).
    Hypothesis (Hi : pinfo_ok (length input) info) (Many : 2 <= length input) (Ranges : generate_ranges (length input) info = Done rs).
    Lemma many_chain : chain 0 rs (length input).
    Proof. destruct (generate_ok (length input) info ltac:(lia) Hi) as (rs' & G & C). assert (rs' = rs) by congruence. subst. exact C. Qed.
    Lemma par_done sched out : parallel act q0 alias out0 info (input, None) sched out ->
      all_done (gat act alias rs q0 input (out0 input) sched).
    Proof. intros P. inversion P as [| | |inp rs1 sc L G g D]; subst; simpl in *; try lia. assert (rs1 = rs) by congruence. subst. exact D. Qed.

    (** C25. If one schedule completes then under no schedule does a worker panic, and every schedule that gives each worker
        enough turns completes with the same result. *)
    Theorem C25_one_completes sched out : parallel act q0 alias out0 info (input, None) sched out ->
      (forall sched', ~ In WCrash (workers alias rs sched' input)) /\
      exists k, forall sched', (forall t, t < length rs -> k <= count_occ Nat.eq_dec sched' t) ->
        parallel act q0 alias out0 info (input, None) sched' out.
    Proof.
      intros P. pose proof (par_done _ _ P) as D. pose proof many_chain as C. split.
      - intros s' I. exact (crash_not_done act alias rs (length input) C q0 input (out0 input) eq_refl (Hout input) s' sched I D).
      - destruct (one_all act alias rs (length input) C q0 input (out0 input) eq_refl (Hout input) sched D) as [k K].
        exists k. intros s' H. pose proof (par_many act q0 alias out0 info input rs s' Many Ranges (K s' H)) as P'.
        rewrite (C25_deterministic alias input _ _ _ _ Hi P P'). exact P'.
    Qed.
    (** C25. If a worker panics under one schedule then no schedule completes, and that worker panics under every schedule that
        gives it enough turns. *)
    Theorem C25_one_panics sched : In WCrash (workers alias rs sched input) ->
      (forall sched' out, ~ parallel act q0 alias out0 info (input, None) sched' out) /\
      exists t k, t < length rs /\ forall sched', k <= count_occ Nat.eq_dec sched' t -> In WCrash (workers alias rs sched' input).
    Proof.
      intros I. pose proof many_chain as C. split.
      - intros s' out P. exact (crash_not_done act alias rs (length input) C q0 input (out0 input) eq_refl (Hout input) sched s' I (par_done _ _ P)).
      - destruct (crash_one act alias rs (length input) C q0 input (out0 input) eq_refl (Hout input) sched I) as (t & Ht & K). eauto.
    Qed.

    Lemma alone_panics r : In r rs ->
      (exists k m, Nat.iter k (lstep act alias (size r)) (WRun q0 0 0, (seg input r, seg (out0 input) r)) = (WCrash, m)) ->
      (forall sched out, ~ parallel act q0 alias out0 info (input, None) sched out) /\
      exists t k, t < length rs /\ forall sched, k <= count_occ Nat.eq_dec sched t -> In WCrash (workers alias rs sched input).
    Proof.
      intros I (k & m & E). pose proof many_chain as C. apply In_nth_error in I as [t R].
      pose proof (crash_all act alias rs (length input) C q0 input (out0 input) eq_refl (Hout input) t r k m R E) as A. split.
      - intros s out P. exact (alone_never_done act alias rs (length input) C q0 input (out0 input) eq_refl (Hout input) t r k m R E s (par_done _ _ P)).
      - exists t, k. split; [apply nth_error_Some; congruence|exact A].
    Qed.
    Lemma range_lengths r : In r rs -> length (seg input r) = size r /\ length (seg (out0 input) r) = size r.
    Proof.
      intros I. apply In_nth_error in I as [t E]. pose proof (chain_in _ _ _ many_chain t r E) as B. destruct r as [lo hi]. cbn [fst snd] in B.
      unfold size; cbn [fst snd]. rewrite !seg_length by (rewrite ?Hout; lia). auto.
    Qed.
    (** C25. In place or not: if on some range the transforms return more values than it has, the first of them (as many as the
        range has) no sooner than they have read as many. *)
    Theorem C25_more_values_panics r : In r rs -> overruns act 0 q0 (seg input r) (size r) ->
      (forall sched out, ~ parallel act q0 alias out0 info (input, None) sched out) /\
      exists t k, t < length rs /\ forall sched, k <= count_occ Nat.eq_dec sched t -> In WCrash (workers alias rs sched input).
    Proof. intros I O. destruct (range_lengths r I) as [L1 L2]. apply (alone_panics r I). exact (over_crash act alias (size r) q0 _ _ O L1 L2). Qed.

    (** C25. A callback that panics on one of the ranges: whatever the schedule Parallel does not return, and once the worker
        of that range has had enough turns it has panicked, in a goroutine where nothing recovers. *)
    Theorem C25_callback_panics r : In r rs -> dies act 0 q0 (seg input r) ->
      (forall sched out, ~ parallel act q0 alias out0 info (input, None) sched out) /\
      exists t k, t < length rs /\ forall sched, k <= count_occ Nat.eq_dec sched t -> In WCrash (workers alias rs sched input).
    Proof. intros I O. destruct (range_lengths r I) as [L1 L2]. apply (alone_panics r I). exact (dies_crash act alias (size r) q0 _ _ O L1 L2). Qed.
  End Many.

  (** *** T and U different types: the output slice is a new one *)
  Section Fresh.
    Variables (input : list T) (rs : list (nat * nat)).
    Hypothesis (Hi : pinfo_ok (length input) info) (Many : 2 <= length input) (Ranges : generate_ranges (length input) info = Done rs).
    (** What the transforms do with each range, returning values as fast as they like but no more than the range has. *)
    Definition fresh_results (res : list (list U * err)) : Prop :=
      Forall2 (fun r we => makes act q0 (seg input r) (fst we) (snd we) /\ length (fst we) <= size r) rs res.

    Lemma fresh_ends res : fresh_results res -> Forall2 (ends_alone act None q0 input (out0 input)) rs res.
    Proof.
      intros R. refine (ends_all act None rs (length input) (many_chain input rs Hi Many Ranges) q0 input (out0 input) res eq_refl (Hout input) _ _ R).
      intros r we _ _ L1 L2 [M L]. exact (makes_fits act (size r) q0 _ _ _ _ M L1 L2 L).
    Qed.

    (** C25. Whatever the schedule: the error of the lowest-numbered failing worker if there is one, else each worker's part of
        the output holds what it returned followed by what was there before. *)
    Theorem C25_fresh_result sched out res : fresh_results res -> parallel act q0 None out0 info (input, None) sched out ->
      out = match first_of (map (fun we => err_of (snd we)) res) with
            | Some e => PError e
            | None => PSlice (concat (map (fun p => left_by (seg (out0 input) (fst p)) (fst (snd p)) (snd (snd p))) (combine rs res)))
            end.
    Proof.
      intros R P. inversion P as [| | |inp ranges sc L' G' g D]; subst; [pose proof Many as M2; rewrite <- H in M2; cbn in M2; lia|pose proof Many as M2; rewrite <- H in M2; cbn in M2; lia|].
      assert (ranges = rs) by congruence. subst ranges.
      destruct (any_final act None rs (length input) (many_chain input rs Hi Many Ranges) q0 input (out0 input) res eq_refl (Hout input) (fresh_ends res R) sched D) as [F1 F2].
      unfold g. rewrite F1, F2. rewrite <- (map_map snd (fun e => WDone (err_of e))), first_error_map, map_map. reflexivity.
    Qed.
    (** C25. No worker panics, and every schedule that gives each worker enough turns completes. *)
    Theorem C25_fresh_completes res : fresh_results res ->
      (forall sched, ~ In WCrash (workers None rs sched input)) /\
      exists k, forall sched, (forall t, t < length rs -> k <= count_occ Nat.eq_dec sched t) ->
        exists out, parallel act q0 None out0 info (input, None) sched out.
    Proof.
      intros R. pose proof (many_chain input rs Hi Many Ranges) as C. split.
      - intros sched. exact (any_no_crash act None rs (length input) C q0 input (out0 input) res eq_refl (Hout input) (fresh_ends res R) sched).
      - destruct (any_progress act None rs (length input) C q0 input (out0 input) res eq_refl (Hout input) (fresh_ends res R)) as [k K].
        exists k. intros sched H. eexists. eapply par_many; eauto.
    Qed.
    (** C25. If on some range the transforms return more values than it has, a worker panics (index out of range) as soon as it
        has had enough turns: no schedule completes. *)
    Theorem C25_fresh_panics r w e : In r rs -> makes act q0 (seg input r) w e -> size r < length w ->
      (forall sched out, ~ parallel act q0 None out0 info (input, None) sched out) /\
      exists t k, t < length rs /\ forall sched, k <= count_occ Nat.eq_dec sched t -> In WCrash (workers None rs sched input).
    Proof.
      intros I M L. destruct (range_lengths input rs Hi Many Ranges r I) as [L1 L2]. apply (alone_panics None input rs Hi Many Ranges r I).
      exact (makes_crash act (size r) q0 _ w e _ M L1 L2 L).
    Qed.
  End Fresh.
End AnyTransforms.
Print Assumptions C25_deterministic.
Print Assumptions C25_one_completes.
Print Assumptions C25_one_panics.
Print Assumptions C25_more_values_panics.
Print Assumptions C25_callback_panics.
Print Assumptions C25_fresh_result.
Print Assumptions C25_fresh_completes.
Print Assumptions C25_fresh_panics.

Lemma seg_map {T U} (f : T -> U) l r : seg (map f l) r = map f (seg l r).
Proof. unfold seg. rewrite skipn_map, firstn_map. reflexivity. Qed.

Lemma parts_map {T U} `{ZU : Zero U} (f : T -> U) (input : list T) (old : list U) rs n :
  chain 0 rs n -> length input = n -> length old = n ->
  concat (map (fun p => left_by (seg old (fst p)) (fst (snd p)) (snd (snd p)))
    (combine rs (map (fun r => (map f (seg input r), EOI)) rs))) = map f input.
Proof.
  intros C Li Lo. rewrite <- (seg_all (map f input)), map_length, Li, <- (chain_concat (map f input) 0 rs n C) by (rewrite map_length; lia).
  f_equal. assert (H : forall t r, nth_error rs t = Some r -> fst r <= snd r /\ snd r <= n).
  { intros t r E. pose proof (chain_in _ _ _ C t r E). lia. }
  clear C. induction rs as [|[lo hi] rs IH]; simpl; auto. rewrite IH by (intros t r E; apply (H (S t) r E)). f_equal.
  destruct (H 0 (lo, hi) eq_refl) as [A B]; simpl in A, B. rewrite seg_map, map_length, seg_length by lia.
  rewrite skipn_all2; [apply app_nil_r|]. rewrite seg_length; lia.
Qed.

Lemma map_results {T U} `{ZU : Zero U} (f : T -> U) input rs :
  results (map_act f) MRead input rs (map (fun r => (map f (seg input r), EOI)) rs).
Proof.
  unfold results. induction rs as [|r rs IH]; simpl; constructor; auto. simpl.
  pose proof (map_until_runs (fun x => (f x, None)) (seg input r) 0) as R. rewrite map_until_pure in R. exact R.
Qed.

(** C25. Parallel(Map f), T and U different types or the same type (in place): under every schedule the mapped input in
    source order, the same as Map f. *)
Theorem C25_map {T U} `{ZU : Zero U} (f : T -> U) info (alias : option (U -> T)) out0 input sched out :
  pinfo_ok (length input) info -> (forall l, length (out0 l) = length l) -> 2 <= length input ->
  parallel (map_act f) MRead alias out0 info (input, None) sched out -> out = PSlice (map f input).
Proof.
  intros Hi Ho L P. destruct (generate_ok (length input) info ltac:(lia) Hi) as (rs & G & C).
  rewrite (C25_result_any_schedule _ _ _ _ _ Ho input sched out rs _ Hi P L G (map_results f input rs)).
  assert (first_of (map (fun we => err_of (snd we)) (map (fun r => (map f (seg input r), EOI)) rs)) = None) as ->.
  { rewrite map_map. simpl. clear. induction rs; simpl; auto. }
  f_equal. eapply parts_map; eauto.
Qed.
Print Assumptions C25_map.

Theorem C25_map_completes {T U} `{ZU : Zero U} (f : T -> U) info (alias : option (U -> T)) out0 input :
  pinfo_ok (length input) info -> (forall l, length (out0 l) = length l) -> 2 <= length input ->
  exists rs k, generate_ranges (length input) info = Done rs /\
    forall sched, (forall t, t < length rs -> k <= count_occ Nat.eq_dec sched t) ->
      parallel (map_act f) MRead alias out0 info (input, None) sched (PSlice (map f input)).
Proof.
  intros Hi Ho L. destruct (generate_ok (length input) info ltac:(lia) Hi) as (rs & G & C).
  destruct (C25_completes _ _ alias out0 info Ho input rs _ Hi L G (map_results f input rs)) as [k K].
  exists rs, k. split; auto. intros sched H. destruct (K sched H) as [out P]. rewrite <- (C25_map f info alias out0 input sched out Hi Ho L P). exact P.
Qed.
Print Assumptions C25_map_completes.

(** C25. Parallel(MapError f) with at least one rejected value: under every schedule the error is that of the first
    rejected value in source order (the lowest-numbered failing worker has it), as in MapError f. *)
Lemma map_until_app {T U} (f : T -> ret U) l1 l2 : (forall x u, f x <> (u, Some EOI)) ->
  err_of (snd (map_until f (l1 ++ l2))) = match err_of (snd (map_until f l1)) with Some e => Some e | None => err_of (snd (map_until f l2)) end.
Proof.
  intros H. induction l1 as [|x l1 IH]; simpl; auto. destruct (f x) as [u [e|]] eqn:F; simpl; auto.
  destruct e; try reflexivity. exfalso. eapply H; eauto.
Qed.
Theorem C25_map_error {T U} `{ZU : Zero U} (f : T -> ret U) info (alias : option (U -> T)) out0 input sched out e :
  pinfo_ok (length input) info -> (forall l, length (out0 l) = length l) -> 2 <= length input ->
  (forall x u, f x <> (u, Some EOI)) -> snd (map_until f input) = e -> e <> EOI ->
  parallel (map_error_act f) MRead alias out0 info (input, None) sched out -> out = PError e.
Proof.
  intros Hi Ho L NE E1 E2 P. destruct (generate_ok (length input) info ltac:(lia) Hi) as (rs & G & C).
  assert (R : results (map_error_act f) MRead input rs (map (fun r => map_until f (seg input r)) rs)).
  { unfold results. clear. induction rs as [|r rs IH]; simpl; constructor; auto. apply map_until_runs. }
  rewrite (C25_result_any_schedule _ _ _ _ _ Ho input sched out rs _ Hi P L G R).
  assert (X : first_of (map (fun we => err_of (snd we)) (map (fun r => map_until f (seg input r)) rs)) = err_of e).
  { assert (E3 : concat (map (seg input) rs) = input) by (rewrite (chain_concat input 0 rs _ C) by lia; apply seg_all).
    rewrite <- E1. transitivity (err_of (snd (map_until f (concat (map (seg input) rs))))); [|rewrite E3; reflexivity]. rewrite map_map.
    clear -NE. induction rs as [|r rs IH]; simpl; auto. rewrite map_until_app by auto. destruct (err_of (snd (map_until f (seg input r)))); auto. }
  rewrite X. destruct e; try reflexivity. congruence.
Qed.
Print Assumptions C25_map_error.

(** C25. If no value is rejected: under every schedule the mapped input in source order, as with MapError f. *)
Lemma map_until_none {T U} (f : T -> ret U) l : (forall x u, f x <> (u, Some EOI)) -> snd (map_until f l) = EOI ->
  forall x, In x l -> f x = (fst (f x), None).
Proof.
  intros NE. induction l as [|y l IH]; intros E x []; cbn in E.
  - subst y. pose proof (NE x (fst (f x))) as N. destruct (f x) as [u [e|]]; [cbn in E, N; congruence|reflexivity].
  - apply IH; [|assumption]. pose proof (NE y (fst (f y))) as N. destruct (f y) as [u [e|]]; [cbn in E, N; congruence|exact E].
Qed.
Lemma map_until_all {T U} (f : T -> ret U) l : (forall x, In x l -> f x = (fst (f x), None)) -> map_until f l = (map (fun x => fst (f x)) l, EOI).
Proof.
  induction l as [|y l IH]; intros K; [reflexivity|]. cbn. rewrite (K y (or_introl eq_refl)), IH; [reflexivity|]. intros x I. apply K. right. exact I.
Qed.
Theorem C25_map_error_none {T U} `{ZU : Zero U} (f : T -> ret U) info (alias : option (U -> T)) out0 input sched out :
  pinfo_ok (length input) info -> (forall l, length (out0 l) = length l) -> 2 <= length input ->
  (forall x u, f x <> (u, Some EOI)) -> snd (map_until f input) = EOI ->
  parallel (map_error_act f) MRead alias out0 info (input, None) sched out -> out = PSlice (fst (map_until f input)).
Proof.
  intros Hi Ho L NE E P. destruct (generate_ok (length input) info ltac:(lia) Hi) as (rs & G & C).
  pose proof (map_until_none f input NE E) as A. set (g := fun x => fst (f x)) in *.
  assert (R : results (map_error_act f) MRead input rs (map (fun r => (map g (seg input r), EOI)) rs)).
  { unfold results. clear -A. induction rs as [|r rs IH]; simpl; constructor; auto. simpl.
    pose proof (map_until_runs f (seg input r) 0) as R. rewrite map_until_all in R; [exact R|]. intros x I. apply A.
    unfold seg in I. rewrite <- (firstn_skipn (fst r) input). apply in_or_app. right.
    rewrite <- (firstn_skipn (snd r - fst r) (skipn (fst r) input)). apply in_or_app. left. exact I. }
  rewrite (C25_result_any_schedule _ _ _ _ _ Ho input sched out rs _ Hi P L G R).
  assert (first_of (map (fun we => err_of (snd we)) (map (fun r => (map g (seg input r), EOI)) rs)) = None) as ->.
  { rewrite map_map. simpl. clear. induction rs; simpl; auto. }
  rewrite (map_until_all f input A). cbn [fst]. f_equal. eapply parts_map; eauto.
Qed.
Print Assumptions C25_map_error_none.

(** C25. Map with a callback that panics for some value of the source: no schedule lets Parallel return. *)
Lemma map_dies {T U} (f : T -> option U) l x d : In x l -> f x = None -> dies (map_crash_act f) d (Some MRead) l.
Proof.
  revert d. induction l as [|y l IH]; intros d I E; [destruct I|]. eapply dies_read; [reflexivity|]. cbn.
  destruct (f y) as [u|] eqn:F; [|apply dies_now; reflexivity]. eapply dies_emit; [reflexivity|]. apply IH; [|exact E].
  destruct I as [->|I]; [congruence|exact I].
Qed.
Theorem C25_map_callback_panics {T U} `{ZU : Zero U} (f : T -> option U) info (alias : option (U -> T)) out0 input x :
  pinfo_ok (length input) info -> (forall l, length (out0 l) = length l) -> 2 <= length input ->
  In x input -> f x = None -> forall sched out, ~ parallel (map_crash_act f) (Some MRead) alias out0 info (input, None) sched out.
Proof.
  intros Hi Ho L I E. destruct (generate_ok (length input) info ltac:(lia) Hi) as (rs & G & C).
  assert (X : In x (concat (map (seg input) rs))) by (rewrite (chain_concat input 0 rs _ C) by lia; rewrite seg_all; exact I).
  apply in_concat in X as (l & K1 & K2). apply in_map_iff in K1 as (r & <- & R).
  refine (proj1 (C25_callback_panics (map_crash_act f) (Some MRead) out0 info Ho alias input rs Hi L G r R _)). exact (map_dies f _ x 0 K2 E).
Qed.
Print Assumptions C25_map_callback_panics.

(** C25. Source errors and short sources: no worker is started. *)
Theorem C25_small {T U Q} `{ZU : Zero U} (act : Q -> action T U Q) q0 alias out0 info r sched out :
  parallel act q0 alias out0 info r sched out ->
  match r with
  | (_, Some e) => out = PError e
  | ([], None) => out = PEmpty
  | ([x], None) => out = POne x
  | _ => True
  end.
Proof.
  intros P. destruct P as [l e| |x|inp rs sc L G g D]; auto.
  - destruct l as [|a [|b c]]; reflexivity.
  - destruct inp as [|a [|b c]]; simpl in L; auto; lia.
Qed.
Print Assumptions C25_small.

(** ** C26 *)
Lemma filter_results {T} `{ZT : Zero T} (p : T -> bool) input rs :
  results (filter_act p) MRead input rs (map (fun r => (filter p (seg input r), EOI)) rs).
Proof. unfold results. induction rs as [|r rs IH]; simpl; constructor; auto. simpl. apply filter_runs. Qed.

(** C26. Parallel(Filter p) in place: every range keeps its length, the matching values followed by the original
    elements at the positions not overwritten. *)
Theorem C26_filter_stale {T} `{ZT : Zero T} (p : T -> bool) info input sched out rs :
  pinfo_ok (length input) info -> 2 <= length input -> generate_ranges (length input) info = Done rs ->
  parallel (filter_act p) MRead same_type out_same info (input, None) sched out ->
  out = PSlice (concat (map (fun r => filter p (seg input r) ++ skipn (length (filter p (seg input r))) (seg input r)) rs)).
Proof.
  intros Hi L G P.
  rewrite (C25_result_any_schedule _ _ _ _ _ (fun l => eq_refl) input sched out rs _ Hi P L G (filter_results p input rs)).
  assert (first_of (map (fun we => err_of (snd we)) (map (fun r => (filter p (seg input r), EOI)) rs)) = None) as ->.
  { rewrite map_map. simpl. clear. induction rs; simpl; auto. }
  f_equal. f_equal. clear. induction rs as [|r rs IH]; simpl; auto. rewrite IH. reflexivity.
Qed.
Print Assumptions C26_filter_stale.

(** C26. Hence the result always has as many values as the input: as soon as one value does not match, it is not the
    filtered input. *)
Theorem C26_filter_wrong {T} `{ZT : Zero T} (p : T -> bool) info input sched out :
  pinfo_ok (length input) info -> 2 <= length input -> existsb (fun x => negb (p x)) input = true ->
  parallel (filter_act p) MRead same_type out_same info (input, None) sched out ->
  out <> PSlice (filter p input).
Proof.
  intros Hi L Ex P. destruct (generate_ok (length input) info ltac:(lia) Hi) as (rs & G & C).
  rewrite (C26_filter_stale p info input sched out rs Hi L G P). intros E. inversion E as [E'].
  apply (f_equal (@length T)) in E'.
  assert (X : length (concat (map (fun r => filter p (seg input r) ++ skipn (length (filter p (seg input r))) (seg input r)) rs)) = length input).
  { assert (E3 : concat (map (seg input) rs) = input) by (rewrite (chain_concat input 0 rs _ C) by lia; apply seg_all).
    transitivity (length (concat (map (seg input) rs))); [|rewrite E3; reflexivity].
    clear. induction rs as [|r rs IH]; simpl; auto. rewrite !app_length, IH, skipn_length.
    assert (length (filter p (seg input r)) <= length (seg input r)).
    { generalize (seg input r). intros l. induction l as [|y l IHl]; simpl; auto. destruct (p y); simpl; lia. }
    lia. }
  rewrite X in E'. clear -Ex E'. assert (length (filter p input) < length input); [|lia].
  clear E'. induction input as [|x l IH]; [discriminate|]. simpl in *.
  assert (length (filter p l) <= length l) by (clear; induction l as [|y l IHl]; simpl; auto; destruct (p y); simpl; lia).
  destruct (p x); simpl in *; [specialize (IH Ex)|]; lia.
Qed.
Print Assumptions C26_filter_wrong.

(** C26. With different types the positions left over hold the zero value; stated for Filter followed by Map, i.e. for
    any transform that returns the values [h r] for the range [r]. *)
Theorem C26_stale_zero {T U Q} `{ZU : Zero U} (act : Q -> action T U Q) q0 info input sched out rs (h : nat * nat -> list U) :
  pinfo_ok (length input) info -> 2 <= length input -> generate_ranges (length input) info = Done rs ->
  (forall r, In r rs -> runs act 0 q0 (seg input r) (h r) EOI) ->
  parallel act q0 None out_fresh info (input, None) sched out ->
  out = PSlice (concat (map (fun r => h r ++ repeat zv (size r - length (h r))) rs)).
Proof.
  intros Hi L G Hh P. destruct (generate_ok (length input) info ltac:(lia) Hi) as (rs' & G' & C). assert (rs' = rs) by congruence. subst rs'.
  assert (R : results act q0 input rs (map (fun r => (h r, EOI)) rs)).
  { unfold results. clear -Hh. induction rs as [|r rs IH]; simpl; constructor; auto.
    - apply Hh. left. reflexivity.
    - apply IH. intros. apply Hh. right. auto. }
  rewrite (C25_result_any_schedule _ _ _ _ _ (fun l => repeat_length zv (length l)) input sched out rs _ Hi P L G R).
  assert (first_of (map (fun we => err_of (snd we)) (map (fun r => (h r, EOI)) rs)) = None) as ->.
  { rewrite map_map. simpl. clear. induction rs; simpl; auto. }
  f_equal. f_equal. assert (H : forall t r, nth_error rs t = Some r -> fst r <= snd r /\ snd r <= length input).
  { intros t r E. pose proof (chain_in _ _ _ C t r E). lia. }
  clear -H. induction rs as [|[lo hi] rs IH]; cbn [map combine fst snd left_by]; auto.
  rewrite IH by (intros t r E; apply (H (S t) r E)). f_equal. f_equal.
  destruct (H 0 (lo, hi) eq_refl) as [A B]; cbn in A, B. unfold size; cbn [fst snd].
  assert (X : seg (out_fresh input) (lo, hi) = repeat zv (hi - lo)).
  { unfold out_fresh. apply list_ext. intros i. rewrite seg_nth. destruct (Nat.ltb_spec i (hi - lo)).
    - rewrite !nth_error_repeat by lia. reflexivity.
    - symmetry. apply nth_error_None. rewrite repeat_length. lia. }
  unfold out_fresh in X; rewrite X. clear. generalize (length (h (lo, hi))). intros k. generalize (hi - lo). intros n. revert k.
  induction n as [|n IH]; intros [|k]; simpl; auto.
Qed.
Print Assumptions C26_stale_zero.

(** ** Non-vacuity *)
Example C24_nonvacuous :
  generate_ranges 10 (PThreads 3) = Done [(0, 4); (4, 7); (7, 10)] /\
  generate_ranges 10 (PItems 4) = Done [(0, 4); (4, 8); (8, 10)] /\
  generate_ranges 10 PNone = Done [(0, 3); (3, 6); (6, 9); (9, 10)] /\ generate_ranges 13 PNone = Done [(0, 4); (4, 8); (8, 12); (12, 13)] /\
  pinfo_ok 10 (PThreads 3) /\ pinfo_ok 13 PNone.
Proof. repeat split; try (vm_compute; reflexivity); simpl; lia. Qed.

(** two workers, in place, interleaved one step at a time, and in another order *)
Example C25_nonvacuous :
  let sched := concat (repeat [1; 0] 6) in
  parallel (map_act (Z.mul 2)) MRead same_type out_same (PThreads 2) ([5; 6; 7]%Z, None) sched (PSlice [10; 12; 14]%Z) /\
  parallel (map_act (Z.mul 2)) MRead same_type out_same (PThreads 2) ([5; 6; 7]%Z, None) (repeat 1 4 ++ repeat 0 6) (PSlice [10; 12; 14]%Z).
Proof.
  split.
  - refine (par_many (map_act (Z.mul 2)) MRead same_type out_same (PThreads 2) [5; 6; 7]%Z [(0, 2); (2, 3)] _ _ eq_refl _); [simpl; lia|].
    cbv. repeat constructor; eauto.
  - refine (par_many (map_act (Z.mul 2)) MRead same_type out_same (PThreads 2) [5; 6; 7]%Z [(0, 2); (2, 3)] _ _ eq_refl _); [simpl; lia|].
    cbv. repeat constructor; eauto.
Qed.
(** the second worker's callback panics; a schedule that lets it get there *)
Example C25_nonvacuous_panic :
  let f (x : Z) : option Z := if (x =? 7)%Z then None else Some (x * 2)%Z in
  (forall sched out, ~ parallel (map_crash_act f) (Some MRead) same_type out_same (PThreads 2) ([5; 6; 7]%Z, None) sched out) /\
  fst (grun (map_crash_act f) same_type [(0, 2); (2, 3)] [1; 1] (ginit (Some MRead) [(0, 2); (2, 3)] ([5; 6; 7]%Z, [5; 6; 7]%Z))) =
    [WRun (Some MRead) 0 0; WCrash].
Proof.
  cbn zeta. split; [|reflexivity]. intros sched out.
  refine (C25_map_callback_panics _ (PThreads 2) same_type out_same [5; 6; 7]%Z 7%Z _ (fun l => eq_refl) _ _ eq_refl sched out); simpl; repeat split; auto; lia.
Qed.
(** both workers fail; the second one is scheduled first and fails first *)
Example C25_nonvacuous_error :
  let f (x : Z) : ret Z := if (x <? 10)%Z then (x, None) else (0%Z, Some (UserErr x)) in
  parallel (map_error_act f) MRead None out_fresh (PThreads 2) ([1; 11; 12; 2]%Z, None) (repeat 1 8 ++ repeat 0 12) (PError (UserErr 11)).
Proof.
  cbn zeta. refine (par_many _ MRead None out_fresh (PThreads 2) [1; 11; 12; 2]%Z [(0, 2); (2, 4)] _ _ eq_refl _); [simpl; lia|].
  cbv. repeat constructor; eauto.
Qed.
Example C26_nonvacuous :
  parallel (filter_act Z.even) MRead same_type out_same (PThreads 2) ([1; 2; 3; 4]%Z, None) (repeat 0 8 ++ repeat 1 8) (PSlice [2; 2; 4; 4]%Z).
Proof.
  refine (par_many _ MRead same_type out_same (PThreads 2) [1; 2; 3; 4]%Z [(0, 2); (2, 4)] _ _ eq_refl _); [simpl; lia|].
  cbv. repeat constructor; eauto.
Qed.
