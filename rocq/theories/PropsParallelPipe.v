(** C119: Parallel whose transforms are any pipeline. *)
From Coq Require Import ZifyNat.
From Verif Require Import Base Iter IterSpec Stream StreamSpec StreamProofs Pipe PipeSpec PipeProofs Slice MemIter MemIterSpec MemIterProofs2 Parallel ParallelSpec ParallelProofs PropsParallel EagerPipe EagerPipeSpec EagerPipeProofs ParallelPipe ParallelPipeSpec ParallelPipeProofs PropsPipe PropsEagerPipe.
Open Scope nat_scope.

(** Pipelines of Maps and Peeks make [map f l] of any [l]. *)
Lemma each_to_meaning {T U} (p : pipe T U) f : each_to p f -> forall l o, meaning p (l, o) = (map f l, o).
Proof.
  induction 1 as [A|A B C zb g p h E IH|A B C za f c0 p h E IH]; intros l o; cbn [meaning].
  - rewrite map_id. reflexivity.
  - unfold stage_meaning. cbn [fst snd]. rewrite map_acc_pure, IH. cbn [fst]. rewrite map_map. reflexivity.
  - unfold stage_meaning. cbn [fst snd]. apply IH.
Qed.
Lemma each_to_element_wise {T U} (p : pipe T U) f : each_to p f -> element_wise p.
Proof. induction 1 as [A|A B C zb g p h E IH|A B C za f c0 p h E IH]; cbn; auto. Qed.
Lemma stages_meaning {A B} (p : pipe A B) : forall tr, emeaning (stages_of p) tr = Some (meaning p tr).
Proof. induction p as [A|A B C g p IH]; intros tr; cbn; [reflexivity|apply IH]. Qed.

Section C119.
  Context {T U : Type} {ZT : Zero T} {ZU : Zero U}.
  Variables (p : pipe T U) (info : pinfo) (alias : option (U -> T)) (out0 : list T -> list U) (input : list T) (rs : list (nat * nat)).
  Hypothesis (Info : pinfo_ok (length input) info) (Out0 : forall l, length (out0 l) = length l) (Many : 2 <= length input).
  Hypothesis (Ranges : generate_ranges (length input) info = Done rs).

  Lemma pipe_results : fits p input rs -> results (pipe_act p) (pipe_worker p) input rs (map (fun r => (values_of p (seg input r), error_of p (seg input r))) rs).
  Proof.
    intros Fi. unfold results. revert Fi. clear. induction rs as [|r q IH]; intros Fi; [constructor|]. cbn [map]. constructor.
    - cbn [fst snd]. destruct (Fi r (or_introl eq_refl)) as [NF LE]. destruct (meaning_ends p (seg input r, Some EOI) EOI eq_refl) as [e E].
      unfold error_of. rewrite E. exact (pipe_worker_runs p (seg input r) e E NF LE).
    - apply IH. intros x I. apply Fi. right. exact I.
  Qed.

  (** Every schedule: if the pipeline fails on a range, the error of the first such range; else each range of the output holds
      the values the pipeline makes of that range of the input, and after them what was there before. *)
  Theorem C119_result sched out : fits p input rs ->
    parallel (pipe_act p) (pipe_worker p) alias out0 info (input, None) sched out ->
    out = match first_of (map (fun r => err_of (error_of p (seg input r))) rs) with
          | Some e => PError e
          | None => PSlice (concat (map (fun r => values_of p (seg input r) ++ skipn (length (values_of p (seg input r))) (seg (out0 input) r)) rs))
          end.
  Proof.
    intros Fi P. rewrite (C25_result_any_schedule _ _ _ _ _ Out0 input sched out rs _ Info P Many Ranges (pipe_results Fi)).
    rewrite map_map. cbn [snd]. destruct (first_of (map (fun r => err_of (error_of p (seg input r))) rs)) eqn:FO; [reflexivity|].
    f_equal. f_equal. clear -FO. revert FO. induction rs as [|r q IH]; intros FO; [reflexivity|]. cbn [map first_of] in FO.
    destruct (err_of (error_of p (seg input r))) eqn:EE; [discriminate|]. cbn [map combine fst snd]. rewrite (IH FO).
    f_equal. unfold left_by. destruct (error_of p (seg input r)); cbn in EE; congruence || reflexivity.
  Qed.
  (** No worker panics, and every schedule that gives each worker enough turns completes. *)
  Theorem C119_no_panic sched : fits p input rs ->
    ~ In WCrash (fst (grun (pipe_act p) alias rs sched (ginit (pipe_worker p) rs (input, out0 input)))).
  Proof. intros Fi. exact (C25_no_panic _ _ _ _ _ Out0 input sched rs _ Info Many Ranges (pipe_results Fi)). Qed.
  Theorem C119_completes : fits p input rs -> exists k, forall sched, (forall t, t < length rs -> k <= count_occ Nat.eq_dec sched t) ->
    exists out, parallel (pipe_act p) (pipe_worker p) alias out0 info (input, None) sched out.
  Proof. intros Fi. exact (C25_completes _ _ _ _ _ Out0 input rs _ Info Many Ranges (pipe_results Fi)). Qed.

  (** Pipelines made of Map, MapError, Filter, Distinct, Duplicate, Peek, Skip and Limit, in any order and number, are such. *)
  Theorem C119_element_wise : element_wise p -> fits p input rs.
  Proof.
    intros EW r _. split; [apply in_step_no_faster; left; exact EW|].
    destruct (pipe_no_faster p EW (seg input r, Some EOI) _ (le_n _)) as [A B]. cbn [fst] in B. lia.
  Qed.
  (** So are those that collect their range first, if they do not return more values than it has. *)
  Theorem C119_collecting : collects p -> (forall part, length (values_of p part) <= length part) -> fits p input rs.
  Proof. intros CO L r _. split; [apply in_step_no_faster; right; exact CO|apply L]. Qed.

  (** A pipeline of Maps and Peeks, in any order and number: under every schedule the same values as without Parallel, in the
      same order. *)
  Theorem C119_pointwise (f : T -> U) sched out : each_to p f ->
    parallel (pipe_act p) (pipe_worker p) alias out0 info (input, None) sched out -> out = PSlice (map f input).
  Proof.
    intros ET P. pose proof (fun l => each_to_meaning p f ET l (Some EOI)) as M. pose proof (each_to_element_wise p f ET) as EW.
    rewrite (C119_result sched out (C119_element_wise EW) P). unfold values_of, error_of.
    destruct (generate_ok (length input) info ltac:(lia) Info) as (rs' & G & C). assert (rs' = rs) by congruence. subst rs'.
    assert (first_of (map (fun r => err_of (match snd (meaning p (seg input r, Some EOI)) with Some e => e | None => EOI end)) rs) = None) as ->.
    { clear -M. induction rs as [|r q IH]; [reflexivity|]. cbn. rewrite M. exact IH. }
    f_equal. rewrite <- (parts_map f input (out0 input) rs (length input) C eq_refl (Out0 input)).
    f_equal. clear -M. induction rs as [|r q IH]; [reflexivity|]. cbn [map combine fst snd]. rewrite IH, M. reflexivity.
  Qed.

  (** Parallel returns as many values as its input has or an error: never what the pipeline makes of the input if that has fewer values. *)
  Theorem C119_dropped sched out : fits p input rs ->
    parallel (pipe_act p) (pipe_worker p) alias out0 info (input, None) sched out ->
    match out with PSlice vs => length vs = length input | PError _ => True | _ => False end.
  Proof.
    intros Fi P. rewrite (C119_result sched out Fi P). destruct (first_of _); [exact Logic.I|].
    destruct (generate_ok (length input) info ltac:(lia) Info) as (rs' & G & C). assert (rs' = rs) by congruence. subst rs'.
    assert (EL : length input = length (concat (map (seg (out0 input)) rs))).
    { rewrite (chain_concat (out0 input) 0 rs _ C) by (rewrite Out0; lia). rewrite <- (Out0 input) at 2. rewrite seg_all. symmetry. apply Out0. }
    rewrite EL. clear EL.
    assert (H : forall r, In r rs -> fst r <= snd r /\ snd r <= length input).
    { intros r I. apply In_nth_error in I as [t E]. pose proof (chain_in _ _ _ C t r E). lia. }
    revert Fi H. clear -Out0. induction rs as [|r q IH]; intros Fi H; [reflexivity|]. cbn [map concat]. rewrite !app_length.
    rewrite IH; [|intros x I; apply Fi; right; exact I|intros x I; apply H; right; exact I]. f_equal.
    destruct (Fi r (or_introl eq_refl)) as [_ L]. fold (values_of p (seg input r)) in L. destruct (H r (or_introl eq_refl)) as [H1 H2].
    rewrite skipn_length. destruct r as [lo hi]. cbn [fst snd] in *. rewrite seg_length in L by lia. rewrite seg_length by (rewrite ?Out0; lia). lia.
  Qed.

  Lemma makes_of r : makes (pipe_act p) (pipe_worker p) (seg input r) (values_of p (seg input r)) (error_of p (seg input r)).
  Proof.
    destruct (meaning_ends p (seg input r, Some EOI) EOI eq_refl) as [e E]. unfold error_of. rewrite E.
    exact (pipe_worker_makes p (seg input r) e E).
  Qed.
  Lemma fresh_of : no_more p input rs -> fresh_results (pipe_act p) (pipe_worker p) input rs (map (fun r => (values_of p (seg input r), error_of p (seg input r))) rs).
  Proof.
    intros NM. assert (B : forall r, In r rs -> length (seg input r) = size r).
    { intros r I. exact (proj1 (range_lengths (pipe_act p) (pipe_worker p) out0 info Out0 input rs Info Many Ranges r I)). }
    unfold fresh_results. revert NM B. generalize makes_of. clear. intros MK NM B. induction rs as [|r q IH]; [constructor|]. cbn [map]. constructor.
    - cbn [fst snd]. split; [apply MK|]. rewrite <- (B r (or_introl eq_refl)). exact (NM r (or_introl eq_refl)).
    - apply IH; intros x I; [apply NM|apply B]; right; exact I.
  Qed.

  (** T and U different types: any pipeline that returns no more values than its range has, however early it returns them. *)
  Theorem C119_fresh_result sched out : no_more p input rs ->
    parallel (pipe_act p) (pipe_worker p) None out0 info (input, None) sched out ->
    out = match first_of (map (fun r => err_of (error_of p (seg input r))) rs) with
          | Some e => PError e
          | None => PSlice (concat (map (fun r => values_of p (seg input r) ++ skipn (length (values_of p (seg input r))) (seg (out0 input) r)) rs))
          end.
  Proof.
    intros NM P. rewrite (C25_fresh_result _ _ out0 info Out0 input rs Info Many Ranges sched out _ (fresh_of NM) P).
    rewrite map_map. cbn [snd]. destruct (first_of (map (fun r => err_of (error_of p (seg input r))) rs)) eqn:FO; [reflexivity|].
    f_equal. f_equal. clear -FO. revert FO. induction rs as [|r q IH]; intros FO; [reflexivity|]. cbn [map first_of] in FO.
    destruct (err_of (error_of p (seg input r))) eqn:EE; [discriminate|]. cbn [map combine fst snd]. rewrite (IH FO).
    f_equal. unfold left_by. destruct (error_of p (seg input r)); cbn in EE; congruence || reflexivity.
  Qed.
  Theorem C119_fresh_completes : no_more p input rs ->
    (forall sched, ~ In WCrash (fst (grun (pipe_act p) None rs sched (ginit (pipe_worker p) rs (input, out0 input))))) /\
    exists k, forall sched, (forall t, t < length rs -> k <= count_occ Nat.eq_dec sched t) ->
      exists out, parallel (pipe_act p) (pipe_worker p) None out0 info (input, None) sched out.
  Proof. intros NM. exact (C25_fresh_completes _ _ out0 info Out0 input rs Info Many Ranges _ (fresh_of NM)). Qed.
  (** If it returns more values than some range has, a worker panics: no schedule completes. *)
  Theorem C119_fresh_panics r : In r rs -> length (seg input r) < length (values_of p (seg input r)) ->
    (forall sched out, ~ parallel (pipe_act p) (pipe_worker p) None out0 info (input, None) sched out) /\
    exists t k, t < length rs /\ forall sched, k <= count_occ Nat.eq_dec sched t ->
      In WCrash (fst (grun (pipe_act p) None rs sched (ginit (pipe_worker p) rs (input, out0 input)))).
  Proof.
    intros I L. refine (C25_fresh_panics _ _ out0 info Out0 input rs Info Many Ranges r _ _ I (makes_of r) _).
    rewrite <- (proj1 (range_lengths (pipe_act p) (pipe_worker p) out0 info Out0 input rs Info Many Ranges r I)). exact L.
  Qed.
  (** In place too, if it has read as many values as it has returned whenever it returns one (but no more than the range has). *)
  Theorem C119_panics r : In r rs -> length (seg input r) < length (values_of p (seg input r)) ->
    no_faster p (seg input r) ->
    (forall sched out, ~ parallel (pipe_act p) (pipe_worker p) alias out0 info (input, None) sched out) /\
    exists t k, t < length rs /\ forall sched, k <= count_occ Nat.eq_dec sched t ->
      In WCrash (fst (grun (pipe_act p) alias rs sched (ginit (pipe_worker p) rs (input, out0 input)))).
  Proof.
    intros I L NF. assert (D : forall k, k <= length (seg input r) -> k <= demand p (seg input r, Some EOI) k).
    { intros k K. unfold values_of in L. pose proof (NF k ltac:(lia)). lia. }
    destruct (meaning_ends p (seg input r, Some EOI) EOI eq_refl) as [e E].
    refine (C25_more_values_panics _ _ out0 info Out0 alias input rs Info Many Ranges r I _).
    rewrite <- (proj1 (range_lengths (pipe_act p) (pipe_worker p) out0 info Out0 input rs Info Many Ranges r I)). exact (pipe_worker_overruns p (seg input r) e E D L).
  Qed.
End C119.

(** As a stage among others: Parallel of Maps and Peeks, between any two pipelines, gives under every schedule what those
    stages give without Parallel. *)
Theorem C119_stage {A0 A B C} {za : Zero A} {zb : Zero B} (pre : epipe A0 A) (p : pipe A B) (f : A -> B) (post : epipe B C) tr0 l info alias out0 sched run :
  each_to p f -> pinfo_ok (length l) info -> (forall x, length (out0 x) = length x) -> emeaning pre tr0 = Some (l, Some EOI) ->
  parallel (pipe_act p) (pipe_worker p) alias out0 info (l, None) sched (run l) ->
  emeaning (eappend pre (EThen (EParallel za p run) post)) tr0 = emeaning (eappend pre (eappend (stages_of p) post)) tr0.
Proof.
  intros ET I O M P. rewrite !(eappend_meaning _ _ _ _ M). rewrite (eappend_meaning _ _ _ _ (stages_meaning p (l, Some EOI))), (each_to_meaning p f ET).
  cbn [emeaning estage_meaning]. unfold ran_on. cbn [fst snd]. pose proof (C25_small _ _ _ _ _ _ _ _ P) as Sm. destruct l as [|x [|y r]].
  - rewrite Sm. reflexivity.
  - rewrite Sm. cbn [ran]. rewrite (each_to_meaning p f ET). reflexivity.
  - destruct (generate_ok (length (x :: y :: r)) info ltac:(cbn; lia) I) as (rs & G & _).
    rewrite (C119_pointwise p info alias out0 _ rs I O ltac:(cbn; lia) G f sched _ ET P). reflexivity.
Qed.

(** Filter then Map, two workers in place, interleaved: the first keeps 2 of [1; 2; 3], the second 4 and 6 of [4; 5; 6]; the places
    of the dropped values still hold what was there. *)
Example C119_nonvacuous :
  let p := PThen (SFilter Zero_nat (pure_map Nat.even) tt) (PThen (SMap Zero_nat (pure_map (Nat.mul 10)) tt) PEnd) in
  element_wise p /\ generate_ranges 6 (PThreads 2) = Done [(0, 3); (3, 6)] /\ map (values_of p) [[1; 2; 3]; [4; 5; 6]] = [[20]; [40; 60]] /\
  parallel (pipe_act p) (pipe_worker p) same_type out_same (PThreads 2) ([1; 2; 3; 4; 5; 6], None) (concat (repeat [1; 0] 12))
    (PSlice [20; 2; 3; 40; 60; 6]).
Proof.
  cbn zeta. split; [cbn; auto|]. split; [reflexivity|]. split; [reflexivity|].
  refine (par_many _ _ same_type out_same (PThreads 2) [1; 2; 3; 4; 5; 6] [(0, 3); (3, 6)] _ _ eq_refl _); [simpl; lia|].
  vm_compute. repeat constructor; eauto.
Qed.
(** Map, Peek and Map. *)
Example C119_ex_pointwise :
  each_to (PThen (SMap Zero_nat (pure_map (Nat.mul 10)) tt) (PThen (SPeek Zero_nat (fun n _ => S n) 0) (PThen (SMap Zero_nat (pure_map S) tt) PEnd)))
    (fun x => S (10 * x)).
Proof. apply each_map, each_peek. exact (each_map _ S _ _ each_end). Qed.
(** ExpandSlices, into another type: returning two values after reading one is no matter if they are not too many, and panics if they are. *)
Example C119_ex_fresh :
  let p := PThen (SExpand Zero_nat) PEnd in
  no_more p [[1; 2]; []; [3]] [(0, 2); (2, 3)] /\ ~ fits p [[1; 2]; []; [3]] [(0, 2); (2, 3)] /\
  parallel (pipe_act p) (pipe_worker p) None out_fresh (PThreads 2) ([[1; 2]; []; [3]], None) (concat (repeat [1; 0] 12)) (PSlice [1; 2; 3]) /\
  generate_ranges 3 (PThreads 2) = Done [(0, 2); (2, 3)] /\ length (seg [[1; 2]; [3]; [4; 5]] (0, 2)) < length (values_of p (seg [[1; 2]; [3]; [4; 5]] (0, 2))) /\
  In WCrash (fst (grun (pipe_act p) None [(0, 2); (2, 3)] (repeat 0 12) (ginit (pipe_worker p) [(0, 2); (2, 3)] ([[1; 2]; [3]; [4; 5]], [0; 0; 0])))).
Proof.
  cbn zeta. split; [intros r [<-|[<-|[]]]; vm_compute; lia|]. split.
  { intros F. destruct (F (0, 2) (or_introl eq_refl)) as [NF _]. specialize (NF 2). vm_compute in NF. lia. }
  split; [refine (par_many _ _ None out_fresh (PThreads 2) [[1; 2]; []; [3]] [(0, 2); (2, 3)] _ _ eq_refl _); [simpl; lia|]; vm_compute; repeat constructor; eauto|].
  split; [reflexivity|]. split; [vm_compute; lia|]. vm_compute. auto.
Qed.
(** In place the same kind of pipeline overwrites what it has not read: here it makes 4 values of each range of 4, but reads its own
    output instead of the 1 after the first 2, and panics. *)
Example C119_ex_overwrites :
  let p := PThen (SMap (@Zero_list nat) (pure_map (fun x => if Nat.even x then [x; x] else [])) tt) (PThen (SExpand Zero_nat) PEnd) in
  generate_ranges 8 (PThreads 2) = Done [(0, 4); (4, 8)] /\ values_of p [2; 1; 4; 3] = [2; 2; 4; 4] /\
  no_more p [2; 1; 4; 3; 2; 1; 4; 3] [(0, 4); (4, 8)] /\
  In WCrash (fst (grun (pipe_act p) same_type [(0, 4); (4, 8)] (repeat 0 12) (ginit (pipe_worker p) [(0, 4); (4, 8)] ([2; 1; 4; 3; 2; 1; 4; 3], [2; 1; 4; 3; 2; 1; 4; 3])))).
Proof.
  cbn zeta. split; [reflexivity|]. split; [reflexivity|]. split; [intros r [<-|[<-|[]]]; vm_compute; lia|]. vm_compute. auto.
Qed.
Print Assumptions C119_result.
Print Assumptions C119_no_panic.
Print Assumptions C119_completes.
Print Assumptions C119_element_wise.
Print Assumptions C119_collecting.
Print Assumptions C119_pointwise.
Print Assumptions C119_dropped.
Print Assumptions C119_stage.
Print Assumptions C119_fresh_result.
Print Assumptions C119_fresh_completes.
Print Assumptions C119_fresh_panics.
Print Assumptions C119_panics.
