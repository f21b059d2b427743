(** C107: how Parallel starts its workers. *)
From Coq Require Import Permutation.
From Verif Require Import Base ParallelSetup.
Open Scope nat_scope.

(** ** The output slice *)
Lemma gotype_eqb_eq a b : gotype_eqb a b = true <-> a = b.
Proof.
  destruct a as [n|n], b as [m|m]; cbn; rewrite ?Nat.eqb_eq; split; intros H; try discriminate H; try (inversion H; reflexivity); congruence.
Qed.

(** With two or more items the workers write into the slice they read from exactly if the two types are the same. *)
Theorem C107_in_place t u n : choose_output t u n = Done InPlace <-> 2 <= n /\ t = u.
Proof.
  destruct n as [|[|n]]; cbn; try (split; [discriminate|lia]).
  destruct t as [a|a], u as [b|b]; cbn; try (split; [discriminate|intros [_ H]; discriminate H]).
  - destruct (Nat.eqb_spec a b) as [->|N]; split; intros H; try discriminate H; [split; [lia|reflexivity]|reflexivity|].
    destruct H as [_ H]; inversion H; contradiction.
  - destruct (Nat.eqb_spec a b) as [->|N]; split; intros H; try discriminate H; [split; [lia|reflexivity]|reflexivity|].
    destruct H as [_ H]; inversion H; contradiction.
Qed.

(** It panics exactly if both are interface types, and different ones: so a pipeline from any to fmt.Stringer works on a source
    of at most one item only. *)
Theorem C107_finding_panics t u n : choose_output t u n = Panicked <-> 2 <= n /\ exists a b, t = TInterface a /\ u = TInterface b /\ a <> b.
Proof.
  destruct n as [|[|n]]; cbn; try (split; [discriminate|intros [H _]; lia]).
  destruct t as [a|a], u as [b|b]; cbn; try (split; [discriminate|intros (_ & x & y & E1 & E2 & _); discriminate]).
  - destruct (a =? b); cbn; (split; [discriminate|intros (_ & x & y & E1 & E2 & _); discriminate]).
  - destruct (Nat.eqb_spec a b) as [->|N]; split; intros H; try discriminate H.
    + destruct H as (_ & x & y & E1 & E2 & N). inversion E1; inversion E2; congruence.
    + split; [lia|]. exists a, b. auto.
    + reflexivity.
Qed.

(** Otherwise (different types, not both interface types) the output slice is a new one. *)
Theorem C107_separate t u n : choose_output t u n = Done Separate <->
  2 <= n /\ t <> u /\ ~ (exists a b, t = TInterface a /\ u = TInterface b).
Proof.
  destruct n as [|[|n]]; cbn; try (split; [discriminate|intros [H _]; lia]).
  destruct t as [a|a], u as [b|b]; cbn.
  - destruct (Nat.eqb_spec a b) as [->|N]; cbn; split; intros H; try discriminate H.
    + destruct H as (_ & H & _). congruence.
    + split; [lia|]. split; [congruence|]. intros (x & y & E & _). discriminate.
    + reflexivity.
  - split; [|reflexivity]. intros _. split; [lia|]. split; [discriminate|]. intros (x & y & E & _). discriminate.
  - split; [|reflexivity]. intros _. split; [lia|]. split; [discriminate|]. intros (x & y & _ & E). discriminate.
  - split; [destruct (a =? b); discriminate|]. intros (_ & _ & H). exfalso. apply H. eauto.
Qed.

(** ** Transforms from a shared Generator *)
Lemma put_length {X} (l : list X) i x : length (put l i x) = length l.
Proof. revert i. induction l as [|y l IH]; intros [|i]; cbn; auto. Qed.
Lemma put_same {X} (l : list X) i x : i < length l -> nth_error (put l i x) i = Some x.
Proof. revert i. induction l as [|y l IH]; intros [|i] L; cbn in *; try lia; auto. apply IH. lia. Qed.
Lemma put_other {X} (l : list X) i j x : i <> j -> nth_error (put l i x) j = nth_error l j.
Proof. revert i j. induction l as [|y l IH]; intros [|i] [|j] N; cbn; auto; congruence. Qed.
Lemma put_in {X} (l : list X) i x y : In y (put l i x) -> y = x \/ In y l.
Proof. revert i. induction l as [|z l IH]; intros [|i] H; cbn in *; try tauto; destruct H as [<-|H]; auto. destruct (IH _ H); auto. Qed.

Section Gen.
  Context {W F : Type}.
  Variable gen : W -> F * W.
  Definition counts (l : list (gpc F)) : nat := length (filter (fun p => match p with GStart => false | _ => true end) l).

  Definition sinv (w0 : W) (fn0 : option F) (g : gshared W F) : Prop :=
    genvars g = Nat.iter (counts (workers g)) (fun w => snd (gen w)) w0 /\
    (forall f, In (GMade f) (workers g) -> exists i, i < counts (workers g) /\ f = made gen w0 i) /\
    (In GStored (workers g) \/ (exists f, In (GApplies f) (workers g)) -> exists i, i < counts (workers g) /\ fnvar g = Some (made gen w0 i)) /\
    (forall f, In (GApplies f) (workers g) -> exists i, i < counts (workers g) /\ f = made gen w0 i) /\
    ~ In GNilCall (workers g).

  Lemma counts_start l t f : nth_error l t = Some GStart -> counts (put l t (GMade f)) = S (counts l).
  Proof.
    unfold counts. revert t. induction l as [|p l IH]; intros [|t] H; cbn in *; try discriminate H.
    - injection H as ->. reflexivity.
    - destruct p; cbn; rewrite IH by exact H; reflexivity.
  Qed.
  Lemma counts_keep l t p q : nth_error l t = Some p -> p <> GStart -> q <> GStart -> counts (put l t q) = counts l.
  Proof.
    unfold counts. revert t. induction l as [|x l IH]; intros [|t] H Np Nq; cbn in *; try discriminate H.
    - injection H as ->. destruct p, q; try congruence; reflexivity.
    - destruct x; cbn; rewrite IH by assumption; reflexivity.
  Qed.

  Lemma sinv_step w0 fn0 g t : sinv w0 fn0 g -> sinv w0 fn0 (sstep gen g t).
  Proof.
    intros (I1 & I2 & I3 & I4 & I5). unfold sstep. destruct (nth_error (workers g) t) as [p|] eqn:N; [|split; auto].
    destruct p as [|f| |f|]; try (split; auto; fail).
    - destruct (gen (genvars g)) as [f w] eqn:G.
      assert (Hf : f = made gen w0 (counts (workers g))) by (unfold made; rewrite <- I1, G; reflexivity).
      split; [|split; [|split; [|split]]]; cbn [workers fnvar genvars].
      + rewrite (counts_start _ _ _ N). cbn. change (w = snd (gen (Nat.iter (counts (workers g)) (fun w => snd (gen w)) w0))).
        rewrite <- I1, G. reflexivity.
      + intros f' H. rewrite (counts_start _ _ _ N). apply put_in in H as [H|H].
        * injection H as ->. exists (counts (workers g)). split; [lia|exact Hf].
        * destruct (I2 f' H) as (i & L & E). exists i. split; [lia|exact E].
      + intros H. rewrite (counts_start _ _ _ N).
        destruct I3 as (i & L & E); [|exists i; split; [lia|exact E]].
        destruct H as [H|[f' H]]; apply put_in in H as [H|H]; try discriminate H; eauto.
      + intros f' H. rewrite (counts_start _ _ _ N). apply put_in in H as [H|H]; [discriminate H|].
        destruct (I4 f' H) as (i & L & E). exists i. split; [lia|exact E].
      + intros H. apply put_in in H as [H|H]; [discriminate H|auto].
    - assert (K : counts (put (workers g) t GStored) = counts (workers g)) by (eapply counts_keep; [exact N|discriminate|discriminate]).
      split; [|split; [|split; [|split]]]; cbn [workers fnvar genvars]; rewrite ?K.
      + exact I1.
      + intros f' H. apply put_in in H as [H|H]; [discriminate H|auto].
      + intros _. destruct (I2 f) as (i & L & E); [eapply nth_error_In; exact N|]. exists i. split; [exact L|congruence].
      + intros f' H. apply put_in in H as [H|H]; [discriminate H|auto].
      + intros H. apply put_in in H as [H|H]; [discriminate H|auto].
    - destruct I3 as (i & L & E). { left. eapply nth_error_In. exact N. }
      assert (K : counts (put (workers g) t (GApplies (made gen w0 i))) = counts (workers g)) by (eapply counts_keep; [exact N|discriminate|discriminate]).
      rewrite E. split; [|split; [|split; [|split]]]; cbn [workers fnvar genvars]; rewrite ?K.
      + exact I1.
      + intros f' H. apply put_in in H as [H|H]; [discriminate H|auto].
      + intros _. exists i. auto.
      + intros f' H. apply put_in in H as [H|H]; [injection H as ->; eauto|auto].
      + intros H. apply put_in in H as [H|H]; [discriminate H|auto].
  Qed.

  Lemma sinv_init n fn0 w : sinv w fn0 (sinit n fn0 w).
  Proof.
    assert (R : forall p : gpc F, In p (repeat GStart n) -> p = GStart) by (intros p; apply repeat_spec).
    assert (C : counts (repeat (@GStart F) n) = 0) by (unfold counts; induction n; cbn in *; auto).
    split; [|split; [|split; [|split]]]; cbn [workers fnvar genvars sinit].
    - rewrite C. reflexivity.
    - intros f H. apply R in H. discriminate H.
    - intros [H|[f H]]; apply R in H; discriminate H.
    - intros f H. apply R in H. discriminate H.
    - intros H. apply R in H. discriminate H.
  Qed.

  Lemma srun_inv n fn0 w sched : sinv w fn0 (srun gen sched (sinit n fn0 w)).
  Proof.
    unfold srun. generalize (sinv_init n fn0 w). generalize (sinit n fn0 w).
    induction sched as [|t sched IH]; intros g I; [exact I|]. cbn. apply IH, sinv_step, I.
  Qed.

  Lemma srun_length n fn0 w sched : length (workers (srun gen sched (sinit n fn0 w))) = n.
  Proof.
    unfold srun. assert (H : length (workers (sinit n fn0 w)) = n) by (cbn; apply repeat_length).
    revert H. generalize (sinit n fn0 w). induction sched as [|t sched IH]; intros g H; [exact H|]. cbn. apply IH.
    unfold sstep. destruct (nth_error (workers g) t) as [[|f| |f|]|]; try exact H.
    - destruct (gen (genvars g)). cbn. rewrite put_length. exact H.
    - cbn. rewrite put_length. exact H.
    - cbn. rewrite put_length. exact H.
  Qed.

  (** Whatever the schedule: no worker calls a nil function, the generator is called at most once per worker, and every worker
      applies one of the transforms made for the workers of this call (never one of an earlier application). *)
  Theorem C107_some_transform n fn0 w sched t p : nth_error (workers (srun gen sched (sinit n fn0 w))) t = Some p ->
    p <> GNilCall /\ (forall f, p = GApplies f -> exists i, i < n /\ f = made gen w i) /\
    exists c, c <= n /\ genvars (srun gen sched (sinit n fn0 w)) = Nat.iter c (fun w => snd (gen w)) w.
  Proof.
    intros N. pose proof (srun_inv n fn0 w sched) as (I1 & _ & _ & I4 & I5). pose proof (srun_length n fn0 w sched) as L.
    assert (C : counts (workers (srun gen sched (sinit n fn0 w))) <= n).
    { rewrite <- L at 2. unfold counts. generalize (workers (srun gen sched (sinit n fn0 w))). intros l.
      induction l as [|x l IH]; cbn; [lia|]. destruct x; cbn; lia. }
    split; [intros ->; apply I5; eapply nth_error_In; exact N|]. split.
    - intros f ->. destruct (I4 f) as (i & Li & E); [eapply nth_error_In; exact N|]. exists i. split; [lia|exact E].
    - eexists. split; [exact C|exact I1].
  Qed.

  (** Workers that do not run at the same time: each one applies its own. *)
  Lemma one_worker g t : nth_error (workers g) t = Some GStart ->
    srun gen [t; t; t] g = mkShared (put (workers g) t (GApplies (fst (gen (genvars g))))) (Some (fst (gen (genvars g)))) (snd (gen (genvars g))).
  Proof.
    intros N. assert (L : t < length (workers g)) by (apply nth_error_Some; congruence).
    unfold srun. cbn [fold_left]. unfold sstep at 3. rewrite N. destruct (gen (genvars g)) as [f w]. cbn [fst snd].
    unfold sstep at 2. cbn [workers fnvar genvars]. rewrite (put_same _ _ _ L).
    assert (P : forall (l : list (gpc F)) i a b, put (put l i a) i b = put l i b).
    { clear. induction l as [|y l IH]; intros [|i] a b; cbn; try reflexivity. rewrite IH. reflexivity. }
    unfold sstep. cbn [workers fnvar genvars]. rewrite !P, (put_same _ _ _ L). reflexivity.
  Qed.

  Theorem C107_sequential n fn0 w order : Permutation order (seq 0 n) ->
    forall i t, nth_error order i = Some t ->
    nth_error (workers (srun gen (flat_map (fun t => [t; t; t]) order) (sinit n fn0 w))) t = Some (GApplies (made gen w i)).
  Proof.
    intros P.
    assert (G : forall order k g, NoDup order -> genvars g = Nat.iter k (fun w => snd (gen w)) w ->
      (forall t, In t order -> nth_error (workers g) t = Some GStart) ->
      (forall t, ~ In t order -> nth_error (workers (srun gen (flat_map (fun t => [t; t; t]) order) g)) t = nth_error (workers g) t) /\
      forall i t, nth_error order i = Some t ->
        nth_error (workers (srun gen (flat_map (fun t => [t; t; t]) order) g)) t = Some (GApplies (made gen w (k + i)))).
    { clear. induction order as [|u order IH]; intros k g ND GV ST; [split; [reflexivity|intros [|i] t H; discriminate H]|].
      inversion ND as [|? ? Nin ND']; subst.
      assert (E : srun gen (flat_map (fun t => [t; t; t]) (u :: order)) g = srun gen (flat_map (fun t => [t; t; t]) order) (srun gen [u; u; u] g))
        by (unfold srun; cbn [flat_map]; apply fold_left_app).
      rewrite E, (one_worker g u (ST u (or_introl eq_refl))). set (g' := mkShared _ _ _).
      assert (GV' : genvars g' = Nat.iter (S k) (fun w => snd (gen w)) w) by (cbn; rewrite GV; reflexivity).
      assert (U : nth_error (workers g') u = Some (GApplies (made gen w k))).
      { cbn. rewrite put_same; [unfold made; rewrite <- GV; reflexivity|].
        apply nth_error_Some. rewrite (ST u (or_introl eq_refl)). discriminate. }
      destruct (IH (S k) g' ND' GV') as [A B].
      { intros t Ht. cbn. rewrite put_other; [apply ST; right; exact Ht|]. intros ->. contradiction. }
      split.
      - intros t Ht. rewrite A; [|intros I; apply Ht; right; exact I]. cbn. apply put_other. intros ->. apply Ht. left. reflexivity.
      - intros [|i] t H; cbn in H.
        + injection H as <-. rewrite (A u Nin), U. f_equal. f_equal. f_equal. lia.
        + rewrite (B i t H). f_equal. f_equal. f_equal. lia. }
    intros i t H. refine (proj2 (G order 0 (sinit n fn0 w) _ eq_refl _) i t H).
    - eapply Permutation_NoDup; [symmetry; exact P|apply seq_NoDup].
    - intros u Hu. cbn. apply nth_error_repeat. eapply Permutation_in in Hu; [|exact P]. apply in_seq in Hu. lia.
  Qed.
End Gen.

(** Finding: workers that run at the same time may all apply the transform made for the last one, and so share its variables:
    for every number of workers there is such a schedule. *)
Lemma iter_shift {X} (f : X -> X) n x : Nat.iter (S n) f x = Nat.iter n f (f x).
Proof. induction n as [|n IH]; [reflexivity|]. change (f (Nat.iter (S n) f x) = f (Nat.iter n f (f x))). rewrite IH. reflexivity. Qed.
Lemma all_make {W F} (gen : W -> F * W) n : forall k g, length (workers g) = k + n ->
  (forall t, k <= t < k + n -> nth_error (workers g) t = Some GStart) ->
  let g' := srun gen (seq k n) g in
  length (workers g') = k + n /\ fnvar g' = fnvar g /\
  (forall t, t < k -> nth_error (workers g') t = nth_error (workers g) t) /\
  (forall i, i < n -> nth_error (workers g') (k + i) = Some (GMade (made gen (genvars g) i))) /\
  genvars g' = Nat.iter n (fun w => snd (gen w)) (genvars g).
Proof.
  induction n as [|n IH]; intros k g L ST; cbn [seq].
  - cbn. repeat split; auto. intros i H. lia.
  - assert (Hk : nth_error (workers g) k = Some GStart) by (apply ST; lia).
    assert (E : srun gen (k :: seq (S k) n) g = srun gen (seq (S k) n) (sstep gen g k)) by reflexivity.
    rewrite E. unfold sstep. rewrite Hk. destruct (gen (genvars g)) as [f w] eqn:G. 
    destruct (IH (S k) (mkShared (put (workers g) k (GMade f)) (fnvar g) w)) as (A1 & A2 & A3 & A4 & A5).
    { cbn. rewrite put_length. lia. }
    { intros t Ht. cbn. rewrite put_other by lia. apply ST. lia. }
    cbn [workers fnvar genvars] in *. split; [rewrite A1; lia|]. split; [exact A2|]. split; [|split].
    + intros t Ht. rewrite A3 by lia. apply put_other. lia.
    + intros [|i] Hi.
      * rewrite Nat.add_0_r. rewrite A3 by lia. rewrite put_same by lia. unfold made. cbn. rewrite G. reflexivity.
      * replace (k + S i) with (S k + i) by lia. rewrite A4 by lia. f_equal. f_equal. unfold made. f_equal. f_equal.
        rewrite iter_shift, G. reflexivity.
    + rewrite A5. rewrite iter_shift, G. reflexivity.
Qed.

Lemma all_store {W F} (gen : W -> F * W) (fs : nat -> F) n : forall k g, length (workers g) = k + n ->
  (forall t, k <= t < k + n -> nth_error (workers g) t = Some (GMade (fs t))) ->
  let g' := srun gen (seq k n) g in
  length (workers g') = k + n /\ (0 < n -> fnvar g' = Some (fs (k + n - 1))) /\
  (forall t, t < k -> nth_error (workers g') t = nth_error (workers g) t) /\
  (forall t, k <= t < k + n -> nth_error (workers g') t = Some GStored).
Proof.
  induction n as [|n IH]; intros k g L ST; cbn [seq].
  - cbn. repeat split; auto; intros; lia.
  - assert (Hk : nth_error (workers g) k = Some (GMade (fs k))) by (apply ST; lia).
    assert (E : srun gen (k :: seq (S k) n) g = srun gen (seq (S k) n) (sstep gen g k)) by reflexivity.
    rewrite E. unfold sstep. rewrite Hk.
    destruct (IH (S k) (mkShared (put (workers g) k GStored) (Some (fs k)) (genvars g))) as (A1 & A2 & A3 & A4).
    { cbn. rewrite put_length. lia. }
    { intros t Ht. cbn. rewrite put_other by lia. apply ST. lia. }
    cbn [workers fnvar genvars] in *. split; [rewrite A1; lia|]. split; [|split].
    + intros _. destruct n as [|n]; [cbn; f_equal; f_equal; lia|]. rewrite A2 by lia. f_equal. f_equal. lia.
    + intros t Ht. rewrite A3 by lia. apply put_other. lia.
    + intros t Ht. destruct (Nat.eq_dec t k) as [->|N]; [rewrite A3 by lia; apply put_same; lia|apply A4; lia].
Qed.

Lemma all_apply {W F} (gen : W -> F * W) f n : forall k g, length (workers g) = k + n -> fnvar g = Some f ->
  (forall t, k <= t < k + n -> nth_error (workers g) t = Some GStored) ->
  let g' := srun gen (seq k n) g in
  (forall t, t < k -> nth_error (workers g') t = nth_error (workers g) t) /\
  (forall t, k <= t < k + n -> nth_error (workers g') t = Some (GApplies f)).
Proof.
  induction n as [|n IH]; intros k g L Fv ST; cbn [seq].
  - cbn. split; auto. intros; lia.
  - assert (Hk : nth_error (workers g) k = Some GStored) by (apply ST; lia).
    assert (E : srun gen (k :: seq (S k) n) g = srun gen (seq (S k) n) (sstep gen g k)) by reflexivity.
    rewrite E. unfold sstep. rewrite Hk, Fv.
    destruct (IH (S k) (mkShared (put (workers g) k (GApplies f)) (Some f) (genvars g))) as (A1 & A2).
    { cbn. rewrite put_length. lia. } { reflexivity. }
    { intros t Ht. cbn. rewrite put_other by lia. apply ST. lia. }
    cbn [workers fnvar genvars] in *. split.
    + intros t Ht. rewrite A1 by lia. apply put_other. lia.
    + intros t Ht. destruct (Nat.eq_dec t k) as [->|N]; [rewrite A1 by lia; apply put_same; lia|apply A2; lia].
Qed.

Theorem C107_finding_shared {W F} (gen : W -> F * W) n fn0 w t : t < n ->
  nth_error (workers (srun gen (seq 0 n ++ seq 0 n ++ seq 0 n) (sinit n fn0 w))) t = Some (GApplies (made gen w (n - 1))).
Proof.
  intros Ht. assert (A : forall a b (g : gshared W F), srun gen (a ++ b) g = srun gen b (srun gen a g)) by (intros; unfold srun; apply fold_left_app).
  rewrite !A.
  destruct (all_make gen n 0 (sinit n fn0 w)) as (L1 & _ & _ & M1 & _).
  { cbn. apply repeat_length. } { intros u Hu. cbn. apply nth_error_repeat. lia. }
  set (g1 := srun gen (seq 0 n) (sinit n fn0 w)) in *.
  destruct (all_store gen (made gen w) n 0 g1) as (L2 & F2 & _ & M2). { exact L1. } { intros u Hu. apply (M1 u). lia. }
  set (g2 := srun gen (seq 0 n) g1) in *.
  apply (all_apply gen (made gen w (n - 1)) n 0 g2); [exact L2|exact (F2 ltac:(lia))|intros u Hu; apply M2; lia|lia].
Qed.

(** *** Concrete cases *)
(** any = interface type 0, fmt.Stringer = interface type 1, int = type 0 *)
Example C107_ex_output : choose_output (TInterface 0) (TInterface 1) 2 = Panicked /\ choose_output (TInterface 0) (TInterface 1) 1 = Done NoOutput /\
  choose_output (TInterface 0) (TInterface 0) 2 = Done InPlace /\ choose_output (TConcrete 0) (TInterface 0) 5 = Done Separate.
Proof. repeat split. Qed.
(** a generator that numbers its transforms; two workers *)
Definition numbered (w : nat) : nat * nat := (w, S w).
Example C107_ex_generator :
  workers (srun numbered [1; 0; 1; 1; 0; 0] (sinit 2 None 7)) = [GApplies 8; GApplies 7] /\
  workers (srun numbered [0; 1; 0; 1; 0; 1] (sinit 2 None 7)) = [GApplies 8; GApplies 8] /\
  workers (srun numbered [1; 1; 1; 0; 0; 0] (sinit 2 None 7)) = [GApplies 8; GApplies 7].
Proof. repeat split. Qed.
