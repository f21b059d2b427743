(** C110: pipelines that contain Reverse, Sort and Parallel stages.  The source is iter.OfIter(f) for any function [f] with captured
    variables [s]. *)
From Coq Require Import Permutation Sorting.
From Verif Require Import Base Iter IterSpec IterProofs Stream StreamSpec StreamProofs Pipe PipeSpec PipeProofs Parallel ParallelSpec ParallelProofs PropsParallel EagerPipe EagerPipeSpec EagerPipeProofs PropsPipe.

Section C110.
  Context {S0 A B : Type} (za : Zero A) (p : epipe A B) (f : stepfn S0 A) (s : S0) (tr : trace A) (out : trace B).
  Hypothesis G : gives f s tr.
  Hypothesis M : emeaning p tr = Some out.

  (** Building the pipeline ends; the values it returns are those of the composed list transformations, then the zero value
      and the error for ever; to build it and answer its first [k] calls takes exactly [edemand p tr k] calls of the source. *)
  Theorem C110_pipeline : exists it, builds p (source za f s) it /\
    (exists st, emits (it_next it) (it_init it) (fst out) st /\ forall e, snd out = Some e -> stuck (H := epipe_zero p za) (it_next it) st e) /\
    (forall k, covers out k -> exists st, pulls (it_next it) (it_init it) out k st /\ pulls f s tr (edemand p tr k) (it_source it st)).
  Proof.
    destruct (epipe_reads p f s tr za (source za f s) tr (fun k => k) out (source_reads za f s tr G) (settled_source za f s) M) as (it & Bd & [Gv D] & St).
    exists it. split; [exact Bd|]. split; [|exact D]. destruct Gv as (st & E & F). exists st. split; [exact E|].
    intros e He. destruct (F e He) as [st' F']. destruct (St _ _ _ _ E F') as [R R']. econstructor; [exact R|]. apply stuck_fixed. exact R'.
  Qed.
  (** When it has been built, the source has been called [edemand p tr 0] times. *)
  Theorem C110_construction : exists it, builds p (source za f s) it /\ pulls f s tr (edemand p tr 0) (it_source it (it_init it)).
  Proof.
    destruct C110_pipeline as (it & Bd & _ & D). exists it. split; [exact Bd|]. destruct (D 0) as (st & P & Q); [left; lia|].
    inversion P; subst. exact Q.
  Qed.
End C110.

(** Over a source that ends, every pipeline can be built ... *)
Theorem C110_total {A B} (p : epipe A B) l e : exists l' e', emeaning p (l, Some e) = Some (l', Some e').
Proof. destruct (emeaning_total p (l, Some e) e eq_refl) as ([l' o'] & e' & E & O). cbn in O. subst. eauto. Qed.
(** ... but over one that never ends, one with an eager stage that is not behind a MapError, Limit or ReduceToBool cannot:
    the call that applies the stage never returns. *)
Theorem C110_endless {S0 A B} (za : Zero A) (p : epipe A B) (f : stepfn S0 A) s : endless f s -> drains p = true ->
  forall it, ~ builds p (source za f s) it.
Proof.
  intros E D it [n H]. apply (never_built p (source za f s) D (endless_next za f s E) n it). apply H. lia.
Qed.

(** Two pipelines with the same meaning on the source cannot be told apart by calling Next. *)
Theorem C110_same_meaning {S0 A B} (za : Zero A) (p q : epipe A B) (f : stepfn S0 A) s l e it1 it2 :
  gives f s (l, Some e) -> emeaning p (l, Some e) = emeaning q (l, Some e) -> epipe_zero p za = epipe_zero q za ->
  builds p (source za f s) it1 -> builds q (source za f s) it2 ->
  exists l' e', yields (H := epipe_zero p za) (it_next it1) (it_init it1) l' e' /\ yields (H := epipe_zero q za) (it_next it2) (it_init it2) l' e'.
Proof.
  intros G Em Z B1 B2. destruct (C110_total p l e) as (l' & e' & M). exists l', e'.
  assert (U : forall (r : epipe A B) i j, builds r (source za f s) i -> builds r (source za f s) j -> i = j).
  { intros r i j [n N] [n' N']. specialize (N (n + n') ltac:(lia)). specialize (N' (n + n') ltac:(lia)). congruence. }
  destruct (C110_pipeline za p f s _ _ G M) as (i & Bi & (st & E & F) & _). rewrite (U p _ _ B1 Bi).
  rewrite Em in M. destruct (C110_pipeline za q f s _ _ G M) as (j & Bj & (st' & E' & F') & _). rewrite (U q _ _ B2 Bj).
  split; [exists st|exists st']; (split; [assumption|]); [apply F|apply F']; reflexivity.
Qed.

(** ** Laws *)
Notation "p >> q" := (EThen p q) (at level 61, right associativity).
Notation map_ zb f := (Lazy (SMap zb (pure_map f) tt)).
Notation filter_ za f := (Lazy (SFilter za (pure_map f) tt)).
Notation limit_ za n := (Lazy (SLimit za n)).


Section Laws.
  Context {A B : Type} (za : Zero A) (zb : Zero B).

  (** Reverse twice: the values as they came. *)
  Theorem C110_reverse_reverse l e : emeaning (EReverse za >> EReverse za >> EEnd) (l, Some e) =
    Some (match e with EOI => l | _ => [] end, Some e).
  Proof. cbn. unfold rearranged. cbn. destruct e; cbn; rewrite ?rev_involutive; reflexivity. Qed.

  Lemma map_meaning (f : A -> B) l o : stage_meaning (SMap zb (pure_map f) tt) (l, o) = (map f l, o).
  Proof. unfold stage_meaning. cbn [fst snd]. rewrite map_acc_pure. reflexivity. Qed.
  Lemma filter_meaning (q : A -> bool) l o : stage_meaning (SFilter za (pure_map q) tt) (l, o) = (filter q l, o).
  Proof. unfold stage_meaning. cbn [fst snd]. rewrite filter_acc_pure. reflexivity. Qed.

  (** Map and Filter may be applied before or after Reverse (if the source ends normally). *)
  Theorem C110_reverse_map (f : A -> B) l :
    emeaning (EReverse za >> map_ zb f >> EEnd) (l, Some EOI) = emeaning (map_ zb f >> EReverse zb >> EEnd) (l, Some EOI).
  Proof. cbn [emeaning estage_meaning rearranged fst snd]. rewrite !map_meaning. cbn [rearranged fst snd]. rewrite map_rev. reflexivity. Qed.
  Lemma filter_rev (q : A -> bool) l : filter q (rev l) = rev (filter q l).
  Proof. induction l as [|x l IH]; [reflexivity|]. cbn [rev filter]. rewrite filter_app, IH. cbn. destruct (q x); cbn; [reflexivity|apply app_nil_r]. Qed.
  Theorem C110_reverse_filter (q : A -> bool) l :
    emeaning (EReverse za >> filter_ za q >> EEnd) (l, Some EOI) = emeaning (filter_ za q >> EReverse za >> EEnd) (l, Some EOI).
  Proof. cbn [emeaning estage_meaning rearranged fst snd]. rewrite !filter_meaning. cbn [rearranged fst snd]. rewrite filter_rev. reflexivity. Qed.

  (** Sorting, with a total order: *)
  Variables (less : A -> A -> bool) (sort : list A -> list A).
  Hypothesis (TO : total_order less) (SO : sorts less sort).

  Lemma sorted_unique l : forall l', Permutation l l' -> StronglySorted (fun a b => less b a = false) l ->
    StronglySorted (fun a b => less b a = false) l' -> l = l'.
  Proof.
    destruct TO as (Irr & Tr & Ant).
    induction l as [|x l IH]; intros l' P S1 S2; [apply Permutation_nil in P; congruence|].
    destruct l' as [|y l']; [symmetry in P; apply Permutation_nil in P; discriminate|].
    inversion S1 as [|? ? S1' F1]; subst. inversion S2 as [|? ? S2' F2]; subst.
    assert (E : x = y).
    { rewrite Forall_forall in F1, F2. apply Ant.
      - destruct (Permutation_in y (Permutation_sym P) (or_introl eq_refl)) as [->|I]; [apply Irr|].
        destruct (Permutation_in x P (or_introl eq_refl)) as [->|I']; [apply Irr|]. exact (F2 x I').
      - destruct (Permutation_in y (Permutation_sym P) (or_introl eq_refl)) as [->|I]; [apply Irr|]. exact (F1 y I). }
    subst y. f_equal. apply IH; [apply (Permutation_cons_inv P)|exact S1'|exact S2'].
  Qed.
  Lemma sort_of l l' : Permutation l l' -> StronglySorted (fun a b => less b a = false) l' -> sort l = l'.
  Proof. intros P S2. destruct (SO l) as (P1 & S1). apply sorted_unique; [transitivity l; [symmetry; exact P1|exact P]|exact S1|exact S2]. Qed.
  Lemma sorted_filter (q : A -> bool) l : StronglySorted (fun a b => less b a = false) l -> StronglySorted (fun a b => less b a = false) (filter q l).
  Proof.
    induction 1 as [|x l S1 IH F]; [constructor|]. cbn. destruct (q x); [|exact IH]. constructor; [exact IH|].
    rewrite Forall_forall in F |- *. intros y I. apply filter_In in I as [I _]. apply F, I.
  Qed.
  Lemma perm_filter (q : A -> bool) l l' : Permutation l l' -> Permutation (filter q l) (filter q l').
  Proof.
    induction 1 as [|x l l' P IH|x y l|l l1 l2 P1 IH1 P2 IH2]; [constructor| | |etransitivity; eassumption].
    - cbn. destruct (q x); [constructor|]; exact IH.
    - cbn. destruct (q x), (q y); try reflexivity. constructor.
  Qed.

  (** sorting again changes nothing; what was done to the order before is lost; *)
  Theorem C110_sort_sort l e : emeaning (ESort za sort >> ESort za sort >> EEnd) (l, Some e) = emeaning (ESort za sort >> EEnd) (l, Some e).
  Proof. cbn. unfold rearranged. cbn. destruct e; cbn; try reflexivity. do 2 f_equal. destruct (SO l) as (P & S1). apply sort_of; [reflexivity|exact S1]. Qed.
  Theorem C110_reverse_sort l e : emeaning (EReverse za >> ESort za sort >> EEnd) (l, Some e) = emeaning (ESort za sort >> EEnd) (l, Some e).
  Proof.
    cbn. unfold rearranged. cbn. destruct e; cbn; try reflexivity. do 2 f_equal. destruct (SO l) as (P & S1). apply sort_of; [|exact S1].
    transitivity l; [symmetry; apply Permutation_rev|exact P].
  Qed.
  (** Filter may be applied before or after; *)
  Theorem C110_sort_filter (q : A -> bool) l :
    emeaning (ESort za sort >> filter_ za q >> EEnd) (l, Some EOI) = emeaning (filter_ za q >> ESort za sort >> EEnd) (l, Some EOI).
  Proof.
    cbn [emeaning estage_meaning rearranged fst snd]. rewrite !filter_meaning. cbn [rearranged fst snd]. do 2 f_equal.
    symmetry. destruct (SO l) as (P & S1). apply sort_of; [apply perm_filter, P|apply sorted_filter, S1].
  Qed.
  (** Limit n after it gives the n least values in order, *)
  Theorem C110_sort_limit n l : exists rest out, emeaning (ESort za sort >> limit_ za n >> EEnd) (l, Some EOI) = Some (out, Some EOI) /\
    length out = Nat.min n (length l) /\ Permutation l (out ++ rest) /\ StronglySorted (fun a b => less b a = false) out /\
    forall x y, In x out -> In y rest -> less y x = false.
  Proof.
    destruct (SO l) as (P & S1). exists (skipn n (sort l)), (firstn n (sort l)). split.
    { cbn [emeaning estage_meaning rearranged fst snd stage_meaning]. destruct (n <=? length (sort l)) eqn:Q; [reflexivity|].
      apply Nat.leb_gt in Q. rewrite firstn_all2 by lia. reflexivity. }
    split; [rewrite firstn_length, (Permutation_length P); reflexivity|]. split; [rewrite firstn_skipn; exact P|].
    rewrite <- (firstn_skipn n (sort l)) in S1. revert S1. generalize (firstn n (sort l)) (skipn n (sort l)). clear.
    intros a b. induction a as [|x a IH]; intros S1; [split; [constructor|intros ? ? []]|]. inversion S1 as [|? ? S2 F]; subst. destruct (IH S2) as (I1 & I2).
    rewrite Forall_forall in F. split.
    - constructor; [exact I1|]. rewrite Forall_forall. intros y I. apply F, in_or_app. left. exact I.
    - intros u v [->|I] J; [apply F, in_or_app; right; exact J|exact (I2 u v I J)].
  Qed.
  (** and Limit 1 what Min gives. *)
  Theorem C110_sort_min l : emeaning (ESort za sort >> limit_ za 1 >> EEnd) (l, Some EOI) =
    emeaning (Lazy (SReduce za (fun a b => if less a b then a else b) []) >> EEnd) (l, Some EOI).
  Proof.
    destruct TO as (Irr & Tr & Ant). cbn [emeaning estage_meaning rearranged fst snd stage_meaning reduced].
    assert (Mn : forall l x, let m := fold_left (fun a b => if less a b then a else b) l x in In m (x :: l) /\ forall y, In y (x :: l) -> less y m = false).
    { clear - Irr Tr Ant. induction l as [|b l IH]; intros x; cbn [fold_left].
      - split; [left; reflexivity|intros y [->|[]]; apply Irr].
      - destruct (less x b) eqn:C; [destruct (IH x) as (I1 & I2)|destruct (IH b) as (I1 & I2)].
        + split; [destruct I1 as [I1|I1]; [left; exact I1|right; right; exact I1]|]. intros y [->|[->|I]].
          * apply I2. left. reflexivity.
          * destruct (less y (fold_left (fun a b => if less a b then a else b) l x)) eqn:D; [|reflexivity].
            rewrite <- (I2 x (or_introl eq_refl)). symmetry. exact (Tr _ _ _ C D).
          * apply I2. right. exact I.
        + split; [right; exact I1|]. intros y [->|I]; [|apply I2, I].
          destruct (less y (fold_left (fun a b => if less a b then a else b) l b)) eqn:D; [|reflexivity].
          destruct (less b y) eqn:E.
          * pose proof (Tr _ _ _ E D) as X. rewrite (I2 b (or_introl eq_refl)) in X. discriminate.
          * rewrite (Ant y b C E), (I2 b (or_introl eq_refl)) in D. discriminate. }
    destruct (SO l) as (P & S1). destruct l as [|x l].
    - apply Permutation_nil in P. rewrite P. reflexivity.
    - destruct (sort (x :: l)) as [|m r] eqn:E; [symmetry in P; apply Permutation_nil in P; discriminate|]. cbn [length Nat.leb firstn]. do 3 f_equal.
      destruct (Mn l x) as (I1 & I2). inversion S1 as [|? ? S2 F]; subst. rewrite Forall_forall in F. apply Ant.
      + apply I2. apply (Permutation_in m (Permutation_sym P)). left. reflexivity.
      + destruct (Permutation_in _ P I1) as [->|I]; [apply Irr|apply F, I].
  Qed.
End Laws.
(** Map with a function that keeps the order may be applied before or after sorting. *)
Theorem C110_sort_map {A B} (za : Zero A) (zb : Zero B) (f : A -> B) lessA sortA lessB sortB l :
  total_order lessB -> sorts lessA sortA -> sorts lessB sortB -> (forall a b, lessB (f a) (f b) = lessA a b) ->
  emeaning (ESort za sortA >> map_ zb f >> EEnd) (l, Some EOI) = emeaning (map_ zb f >> ESort zb sortB >> EEnd) (l, Some EOI).
Proof.
  intros TB SA SB H. cbn [emeaning estage_meaning rearranged fst snd]. rewrite !map_meaning. cbn [rearranged fst snd]. do 2 f_equal.
  symmetry. destruct (SA l) as (P & S1). apply (sort_of lessB sortB TB SB); [apply Permutation_map, P|].
  clear -S1 H. induction S1 as [|x r S1 IH F]; [constructor|]. cbn. constructor; [exact IH|]. rewrite Forall_forall in F |- *.
  intros y I. apply in_map_iff in I as (u & <- & I). rewrite H. apply F, I.
Qed.

(** Finding: an eager stage behind which the source fails gives none of the values read, while a lazy pipeline gives those before the error. *)
Theorem C110_finding_error {A} (za : Zero A) sort l n : emeaning (ESort za sort >> EEnd) (l, Some (UserErr n)) = Some ([], Some (UserErr n)) /\
  emeaning (EReverse za >> EEnd) (l, Some (UserErr n)) = Some ([], Some (UserErr n)) /\
  emeaning (filter_ za (fun _ => true) >> EEnd) (l, Some (UserErr n)) = Some (l, Some (UserErr n)).
Proof.
  split; [reflexivity|]. split; [reflexivity|]. cbn [emeaning estage_meaning]. rewrite filter_meaning. do 2 f_equal.
  induction l as [|x l IH]; [reflexivity|]. cbn. rewrite IH. reflexivity.
Qed.

Lemma eappend_meaning {A B C} (p : epipe A B) : forall (q : epipe B C) t0 tr, emeaning p t0 = Some tr -> emeaning (eappend p q) t0 = emeaning q tr.
Proof.
  induction p as [X|X Y Z g p IH]; intros q t0 tr; cbn [emeaning eappend].
  - intros [= ->]. reflexivity.
  - destruct (estage_meaning g t0) as [t1|]; [|discriminate]. apply IH.
Qed.
Lemma eappend_demand {A B C} (p : epipe A B) : forall (q : epipe B C) t0 tr k, emeaning p t0 = Some tr ->
  edemand (eappend p q) t0 k = edemand p t0 (edemand q tr k).
Proof.
  induction p as [X|X Y Z g p IH]; intros q t0 tr k; cbn [emeaning eappend edemand].
  - intros [= ->]. reflexivity.
  - destruct (estage_meaning g t0) as [t1|]; [|discriminate]. intros M. rewrite (IH q t1 tr k M). reflexivity.
Qed.

(** ** Parallel as a stage: [l] is what the stages before it make of the source, and [run l] what the workers make of [l]
    under some schedule [sched]. *)
Section Par.
  Context {A0 A B C : Type} {za : Zero A} {zb : Zero B} (pre : epipe A0 A) (post : epipe B C) (tr0 : trace A0) (l : list A).
  Variables (info : pinfo) (alias : option (B -> A)) (out0 : list A -> list B) (sched : list nat) (run : list A -> par_result A B).
  Hypothesis (Info : pinfo_ok (length l) info) (Out0 : forall x, length (out0 x) = length x).

  (** Parallel(Map f) between any two pipelines gives, under every schedule, what Map f gives; *)
  Theorem C110_parallel_map (f : A -> B) : emeaning pre tr0 = Some (l, Some EOI) ->
    parallel (map_act f) MRead alias out0 info (l, None) sched (run l) ->
    emeaning (eappend pre (EParallel za (PThen (SMap zb (pure_map f) tt) PEnd) run >> post)) tr0 = emeaning (eappend pre (map_ zb f >> post)) tr0.
  Proof.
    intros M P. rewrite !(eappend_meaning _ _ _ _ M). cbn [emeaning estage_meaning]. unfold ran_on. cbn [fst snd]. rewrite map_meaning.
    pose proof (C25_small _ _ _ _ _ _ _ _ P) as Sm. destruct l as [|x [|y r]].
    - rewrite Sm. reflexivity.
    - rewrite Sm. cbn [ran meaning]. rewrite map_meaning. reflexivity.
    - rewrite (C25_map f info alias out0 _ sched _ Info Out0 ltac:(cbn; lia) P). reflexivity.
  Qed.
  (** so does Parallel(MapError f) if f rejects nothing; if it rejects a value, nothing but the error of the first rejected one,
      where MapError f gives the values before it too. *)
  Theorem C110_parallel_map_error (f : A -> ret B) e : emeaning pre tr0 = Some (l, Some EOI) ->
    (forall x u, f x <> (u, Some EOI)) -> snd (map_until f l) = e -> e <> EOI ->
    parallel (map_error_act f) MRead alias out0 info (l, None) sched (run l) ->
    emeaning (eappend pre (EParallel za (PThen (SMapError zb (pure_map f) tt) PEnd) run >> post)) tr0 = emeaning post ([], Some e) /\
    emeaning (eappend pre (Lazy (SMapError zb (pure_map f) tt) >> post)) tr0 = emeaning post (fst (map_until f l), Some e).
  Proof.
    intros M NE E N P.
    assert (L : forall k, stage_meaning (SMapError zb (pure_map f) tt) (k, Some EOI) = (fst (map_until f k), Some (snd (map_until f k)))).
    { cbn [stage_meaning fst snd]. intros k. rewrite map_acc_pure. cbn [fst]. clear -NE. induction k as [|x k IH]; [reflexivity|]. cbn.
      destruct (f x) as [u [e|]]; [reflexivity|]. rewrite IH. reflexivity. }
    rewrite !(eappend_meaning _ _ _ _ M). cbn [emeaning estage_meaning]. unfold ran_on. rewrite L, E. cbn [fst snd]. split; [|reflexivity].
    pose proof (C25_small _ _ _ _ _ _ _ _ P) as Sm. destruct l as [|x [|y r]].
    - cbn in E. congruence.
    - rewrite Sm. cbn [ran meaning]. rewrite L, E. do 2 f_equal. cbn. cbn in E. destruct (f x) as [u [e'|]]; [reflexivity|cbn in E; congruence].
    - rewrite (C25_map_error f info alias out0 _ sched _ e Info Out0 ltac:(cbn; lia) NE E N P). reflexivity.
  Qed.
  Theorem C110_parallel_map_error_none (f : A -> ret B) : emeaning pre tr0 = Some (l, Some EOI) ->
    (forall x u, f x <> (u, Some EOI)) -> snd (map_until f l) = EOI ->
    parallel (map_error_act f) MRead alias out0 info (l, None) sched (run l) ->
    emeaning (eappend pre (EParallel za (PThen (SMapError zb (pure_map f) tt) PEnd) run >> post)) tr0 =
    emeaning (eappend pre (Lazy (SMapError zb (pure_map f) tt) >> post)) tr0.
  Proof.
    intros M NE E P.
    assert (L : forall k, stage_meaning (SMapError zb (pure_map f) tt) (k, Some EOI) = (fst (map_until f k), Some (snd (map_until f k)))).
    { cbn [stage_meaning fst snd]. intros k. rewrite map_acc_pure. cbn [fst]. clear -NE. induction k as [|x k IH]; [reflexivity|]. cbn.
      destruct (f x) as [u [e|]]; [reflexivity|]. rewrite IH. reflexivity. }
    rewrite !(eappend_meaning _ _ _ _ M). cbn [emeaning estage_meaning]. unfold ran_on. rewrite L, E. cbn [fst snd].
    pose proof (C25_small _ _ _ _ _ _ _ _ P) as Sm. destruct l as [|x [|y r]].
    - rewrite Sm. reflexivity.
    - rewrite Sm. cbn [ran meaning]. rewrite L, E. reflexivity.
    - rewrite (C25_map_error_none f info alias out0 _ sched _ Info Out0 ltac:(cbn; lia) NE E P). reflexivity.
  Qed.
  (** If the source of Parallel fails, no worker is started, whatever the transforms are; *)
  Theorem C110_parallel_failed (t : pipe A B) e : emeaning pre tr0 = Some (l, Some e) -> e <> EOI ->
    emeaning (eappend pre (EParallel za t run >> post)) tr0 = emeaning post ([], Some e).
  Proof.
    intros M N. rewrite (eappend_meaning _ _ _ _ M). cbn [emeaning estage_meaning]. unfold ran_on. cbn [fst snd]. destruct e; congruence || reflexivity.
  Qed.
  (** and Parallel always reads its source to the end when it is applied, however little is asked of it. *)
  Theorem C110_parallel_demand (t : pipe A B) o k : emeaning pre tr0 = Some (l, o) ->
    edemand (eappend pre (EParallel za t run >> post)) tr0 k = edemand pre tr0 (Datatypes.S (length l)).
  Proof.
    intros M. rewrite (eappend_demand _ _ _ _ k M). reflexivity.
  Qed.
End Par.

(** Over an iterator: Parallel(Map g) returns what g makes of each value, in order, and then EOI for ever; applying it calls
    the source once for each value and once more, and calling Next on the result calls it no more. *)
Theorem C110_parallel_iter {S0 A B} (za : Zero A) (zb : Zero B) (g : A -> B) info alias out0 sched run (f : stepfn S0 A) s l :
  gives f s (l, Some EOI) -> pinfo_ok (length l) info -> (forall x, length (out0 x) = length x) ->
  parallel (map_act g) MRead alias out0 info (l, None) sched (run l) ->
  exists it, builds (EParallel za (PThen (SMap zb (pure_map g) tt) PEnd) run >> EEnd) (source za f s) it /\
    yields (it_next it) (it_init it) (map g l) EOI /\
    forall k, k <= Datatypes.S (length l) -> exists st, pulls (it_next it) (it_init it) (map g l, Some EOI) k st /\
      pulls f s (l, Some EOI) (Datatypes.S (length l)) (it_source it st).
Proof.
  intros G I O P. assert (M : emeaning (EParallel za (PThen (SMap zb (pure_map g) tt) PEnd) run >> EEnd) (l, Some EOI) = Some (map g l, Some EOI)).
  { rewrite (C110_parallel_map EEnd EEnd (l, Some EOI) l info alias out0 sched run I O g eq_refl P). cbn [eappend emeaning estage_meaning]. rewrite map_meaning. reflexivity. }
  destruct (C110_pipeline za _ f s _ _ G M) as (it & Bd & (st & E & F) & D). exists it. split; [exact Bd|]. split.
  - exists st. split; [exact E|]. exact (F EOI eq_refl).
  - intros k Hk. destruct (D k) as (st' & P1 & P2).
    { unfold covers. cbn [fst snd]. rewrite map_length. destruct (Nat.eq_dec k (Datatypes.S (length l))) as [->|]; [right; split; [reflexivity|discriminate]|left; lia]. }
    exists st'. split; [exact P1|]. exact P2.
Qed.

(** Over 0, 1, 2, ...: the first five even numbers, largest first, of which the first two: building it takes nine calls of the
    source, and calling Next three times none. *)
Definition example : epipe nat nat :=
  filter_ Zero_nat Nat.even >> limit_ Zero_nat 5 >> EReverse Zero_nat >> limit_ Zero_nat 2 >> EEnd.
Example C110_nonvacuous : gives naturals 0 (seq 0 10, None) /\ endless naturals 0 /\
  emeaning example (seq 0 10, None) = Some ([8; 6], Some EOI) /\ edemand example (seq 0 10, None) 0 = 9 /\ edemand example (seq 0 10, None) 3 = 9 /\
  drains example = false /\ drains (filter_ Zero_nat Nat.even >> EReverse Zero_nat >> EEnd) = true /\ total_order Nat.ltb.
Proof.
  split; [exact (proj1 C106_ex)|]. split.
  { exists (fun _ => True). split; [exact I|]. intros fuel s r s' _ E. unfold naturals in E. injection E as <- <-. split; [reflexivity|exact I]. }
  repeat split; try (vm_compute; reflexivity).
  - apply Nat.ltb_irrefl.
  - intros a b c H1 H2. apply Nat.ltb_lt in H1, H2. apply Nat.ltb_lt. lia.
  - intros a b H1 H2. apply Nat.ltb_ge in H1, H2. lia.
Qed.
Print Assumptions C110_pipeline.
Print Assumptions C110_construction.
Print Assumptions C110_total.
Print Assumptions C110_endless.
Print Assumptions C110_same_meaning.
Print Assumptions C110_reverse_reverse.
Print Assumptions C110_reverse_map.
Print Assumptions C110_reverse_filter.
Print Assumptions C110_sort_sort.
Print Assumptions C110_reverse_sort.
Print Assumptions C110_sort_filter.
Print Assumptions C110_sort_limit.
Print Assumptions C110_sort_min.
Print Assumptions C110_sort_map.
Print Assumptions C110_finding_error.
Print Assumptions C110_parallel_map.
Print Assumptions C110_parallel_map_error.
Print Assumptions C110_parallel_map_error_none.
Print Assumptions C110_parallel_failed.
Print Assumptions C110_parallel_demand.
Print Assumptions C110_parallel_iter.
(** Filter before, Parallel(Map) with two workers in place, one step at a time each; Limit after: the source is read to the end. *)
Example C110_ex_parallel :
  let pre := filter_ Zero_nat Nat.odd >> EEnd in let post := limit_ Zero_nat 1 >> EEnd in
  let run := fun _ : list nat => @PSlice nat nat [10; 30; 50] in
  emeaning pre ([1; 2; 3; 4; 5], Some EOI) = Some ([1; 3; 5], Some EOI) /\
  parallel (map_act (Nat.mul 10)) MRead same_type out_same (PThreads 2) ([1; 3; 5], None) (concat (repeat [1; 0] 6)) (run [1; 3; 5]) /\
  emeaning (eappend pre (EParallel Zero_nat (PThen (SMap Zero_nat (pure_map (Nat.mul 10)) tt) PEnd) run >> post)) ([1; 2; 3; 4; 5], Some EOI) = Some ([10], Some EOI) /\
  edemand (eappend pre (EParallel Zero_nat (PThen (SMap Zero_nat (pure_map (Nat.mul 10)) tt) PEnd) run >> post)) ([1; 2; 3; 4; 5], Some EOI) 1 = 6.
Proof.
  cbn zeta. split; [reflexivity|]. split; [|split; vm_compute; reflexivity].
  refine (par_many (map_act (Nat.mul 10)) MRead same_type out_same (PThreads 2) [1; 3; 5] [(0, 2); (2, 3)] _ _ eq_refl _); [simpl; lia|].
  cbv. repeat constructor; eauto.
Qed.
