(** Proofs about Supplier.v. *)
From Verif Require Import Base Supplier.
Open Scope nat_scope.

Arguments goto : simpl never.

Section P.
  Context {T W : Type} {ZT : Zero T}.
  Variable supplier : W -> T * W.
  Notation run := (gorun supplier).
  Notation step := (gostep supplier).

  Lemma goto_same (f : nat -> gopc T) g p : goto f g p g = p.
  Proof. unfold goto. rewrite Nat.eqb_refl. reflexivity. Qed.
  Lemma goto_other (f : nat -> gopc T) g p i : i <> g -> goto f g p i = f i.
  Proof. intros H. unfold goto. destruct (Nat.eqb_spec i g); congruence. Qed.

  (** who has called the supplier *)
  Definition callers (C : list nat) (s : shared T W) : Prop :=
    NoDup C /\ length C = length (supplied s) /\
    forall g, In g C -> pcs s g <> Missed /\ (isCached s = true \/ exists v, pcs s g = Called v).

  Lemma callers_step C s g : callers C s -> exists C', callers C' (step s g) /\ incl C' (g :: C).
  Proof.
    intros (ND & L & H). unfold gostep. destruct (pcs s g) as [| |v|v|] eqn:P.
    - exists C. split; [|apply incl_tl, incl_refl]. split; [exact ND|]. split; [exact L|]. intros i I. cbn.
      destruct (Nat.eqb_spec i g) as [->|NE]; [rewrite goto_same|rewrite goto_other by auto; apply H; exact I].
      destruct (H g I) as [_ [F|[v F]]]; [rewrite F; split; [discriminate|left; reflexivity]|congruence].
    - exists (g :: C). split; [|apply incl_refl]. destruct (supplier (sup s)) as [v w].
      assert (NI : ~ In g C). { intros I. destruct (H g I) as [N _]. contradiction. }
      split; [constructor; auto|]. split; [cbn; f_equal; exact L|]. intros i I. cbn. destruct (Nat.eqb_spec i g) as [->|NE].
      + rewrite goto_same. split; [discriminate|right; eauto].
      + rewrite goto_other by auto. destruct I as [<-|I]; [congruence|]. apply H; exact I.
    - exists C. split; [|apply incl_tl, incl_refl]. split; [exact ND|]. split; [exact L|]. intros i I. cbn. split; [|left; reflexivity].
      destruct (Nat.eqb_spec i g) as [->|NE]; [rewrite goto_same; discriminate|rewrite goto_other by auto; apply H; exact I].
    - exists C. split; [|apply incl_tl, incl_refl]. split; [exact ND|]. split; [exact L|]. intros i I. cbn.
      destruct (Nat.eqb_spec i g) as [->|NE]; [rewrite goto_same|rewrite goto_other by auto; apply H; exact I].
      split; [discriminate|]. destruct (H g I) as [_ [F|[u F]]]; [left; exact F|congruence].
    - exists C. split; [|apply incl_tl, incl_refl]. split; [exact ND|]. split; [exact L|]. intros i I. cbn.
      destruct (Nat.eqb_spec i g) as [->|NE]; [rewrite goto_same|rewrite goto_other by auto; apply H; exact I].
      split; [discriminate|]. destruct (H g I) as [_ [F|[u F]]]; [left; exact F|congruence].
  Qed.

  Lemma callers_run l : forall C s, callers C s -> exists C', callers C' (run l s) /\ incl C' (C ++ l).
  Proof.
    induction l as [|g l IH]; intros C s H; cbn.
    - exists C. rewrite app_nil_r. split; [exact H|apply incl_refl].
    - destruct (callers_step C s g H) as (C1 & H1 & I1). destruct (IH C1 _ H1) as (C2 & H2 & I2). exists C2. split; [exact H2|].
      intros x X. apply I2 in X. apply in_app_or in X as [X|X]; apply in_or_app; [|right; right; exact X].
      apply I1 in X as [<-|X]; [right; left; reflexivity|left; exact X].
  Qed.

  Lemma calls_bounded l w : length (supplied (run l (shared0 w))) <= length (nodup Nat.eq_dec l).
  Proof.
    destruct (callers_run l [] (shared0 w)) as (C & (ND & L & _) & I).
    { split; [constructor|]. split; [reflexivity|]. intros g []. }
    rewrite <- L. apply NoDup_incl_length; [exact ND|]. intros x X. apply nodup_In. apply I in X. exact X.
  Qed.

  (** where results come from *)
  Definition origin (s : shared T W) : Prop :=
    (cachedVal s = zv \/ In (cachedVal s) (supplied s)) /\
    (forall g v, pcs s g = Called v \/ pcs s g = Flagged v -> In v (supplied s)) /\
    (forall g v, In (g, v) (results s) -> v = zv \/ In v (supplied s)).

  Lemma origin_step s g : origin s -> origin (step s g).
  Proof.
    intros (A & B & C). unfold gostep. destruct (pcs s g) as [| |v|v|] eqn:P.
    - split; [exact A|]. split; [|exact C]. cbn. intros i v. destruct (Nat.eqb_spec i g) as [->|NE].
      + rewrite goto_same. destruct (isCached s); intros [|]; discriminate.
      + rewrite goto_other by auto. apply B.
    - destruct (supplier (sup s)) as [v w]. split; [cbn; destruct A; [left|right]; auto|]. cbn. split.
      + intros i u. destruct (Nat.eqb_spec i g) as [->|NE].
        * rewrite goto_same. intros [E|E]; inversion E. left; reflexivity.
        * rewrite goto_other by auto. intros H. right. eapply B; exact H.
      + intros i u H. destruct (C i u H); auto.
    - split; [exact A|]. cbn. split; [|exact C]. intros i u. destruct (Nat.eqb_spec i g) as [->|NE].
      + rewrite goto_same. intros [E|E]; inversion E; subst. eapply B; eauto.
      + rewrite goto_other by auto. apply B.
    - split; [right; eapply B; eauto|]. split; [|exact C]. cbn. intros i u. destruct (Nat.eqb_spec i g) as [->|NE].
      + rewrite goto_same. intros [|]; discriminate.
      + rewrite goto_other by auto. apply B.
    - split; [exact A|]. cbn. split.
      + intros i u. destruct (Nat.eqb_spec i g) as [->|NE].
        * rewrite goto_same. intros [|]; discriminate.
        * rewrite goto_other by auto. apply B.
      + intros i u [E|H]; [inversion E; subst; exact A|eauto].
  Qed.
  Lemma origin_run l : forall s, origin s -> origin (run l s).
  Proof. induction l as [|g l IH]; intros s H; cbn; auto. apply IH, origin_step, H. Qed.
  Lemma origin_start w : origin (shared0 w).
  Proof.
    split; [left; reflexivity|]. split; [intros g v [|]; discriminate|]. intros g v [].
  Qed.

  (** once the value is there and nobody is inside *)
  Definition settled (v : T) (sd : list T) (w : W) (s : shared T W) : Prop :=
    isCached s = true /\ cachedVal s = v /\ supplied s = sd /\ sup s = w /\ forall g, pcs s g = Outside \/ pcs s g = Returning.

  Lemma settled_step v sd w s g : settled v sd w s ->
    settled v sd w (step s g) /\ exists new, results (step s g) = new ++ results s /\ Forall (fun r => snd r = v) new.
  Proof.
    intros (F & V & Sd & Wd & P). unfold gostep. destruct (P g) as [E|E]; rewrite E.
    - split.
      + repeat split; auto. cbn. intros i. destruct (Nat.eqb_spec i g) as [->|NE]; [rewrite goto_same, F; auto|rewrite goto_other; auto].
      + exists []. auto.
    - split.
      + repeat split; auto. cbn. intros i. destruct (Nat.eqb_spec i g) as [->|NE]; [rewrite goto_same; auto|rewrite goto_other; auto].
      + exists [(g, cachedVal s)]. auto.
  Qed.
  Lemma settled_run l : forall v sd w s, settled v sd w s ->
    settled v sd w (run l s) /\ exists new, results (run l s) = new ++ results s /\ Forall (fun r => snd r = v) new.
  Proof.
    induction l as [|g l IH]; intros v sd w s H; cbn.
    - split; [exact H|]. exists []. auto.
    - destruct (settled_step v sd w s g H) as (H1 & n1 & R1 & F1). destruct (IH v sd w _ H1) as (H2 & n2 & R2 & F2).
      split; [exact H2|]. exists (n2 ++ n1). unfold gorun in R2. rewrite R2, R1, app_assoc. split; [reflexivity|].
      apply Forall_app. auto.
  Qed.

  (** a state in which some call has returned and none is in progress *)
  Definition flagged_inv (s : shared T W) : Prop :=
    (forall g, pcs s g = Returning \/ (exists v, pcs s g = Flagged v) -> isCached s = true) /\
    (results s <> [] -> isCached s = true).
  Lemma flagged_step s g : flagged_inv s -> flagged_inv (step s g).
  Proof.
    intros (A & B). unfold gostep. destruct (pcs s g) as [| |v|v|] eqn:P.
    - split; [|exact B]. cbn. intros i. destruct (Nat.eqb_spec i g) as [->|NE].
      + rewrite goto_same. destruct (isCached s); auto. intros [|[]]; discriminate.
      + rewrite goto_other by auto. apply A.
    - destruct (supplier (sup s)) as [v w]. split; [|exact B]. cbn. intros i. destruct (Nat.eqb_spec i g) as [->|NE].
      + rewrite goto_same. intros [|[]]; discriminate.
      + rewrite goto_other by auto. apply A.
    - split; cbn; auto.
    - split; [|exact B]. cbn. intros i. destruct (Nat.eqb_spec i g) as [->|NE].
      + intros _. apply (A g). right; eauto.
      + rewrite goto_other by auto. apply A.
    - split.
      + cbn. intros i. destruct (Nat.eqb_spec i g) as [->|NE].
        * rewrite goto_same. intros [|[]]; discriminate.
        * rewrite goto_other by auto. apply A.
      + cbn. intros _. apply (A g). left; exact P.
  Qed.
  Lemma flagged_run l : forall s, flagged_inv s -> flagged_inv (run l s).
  Proof. induction l as [|g l IH]; intros s H; cbn; auto. apply IH, flagged_step, H. Qed.
  Lemma flagged_start w : flagged_inv (shared0 w).
  Proof. split; cbn; [|congruence]. intros g [|[]]; discriminate. Qed.

  Lemma run_app l1 l2 s : run (l1 ++ l2) s = run l2 (run l1 s).
  Proof. unfold gorun. apply fold_left_app. Qed.

  (** the flag is only set after a value is stored or about to be: when nobody is inside, cachedVal was supplied *)
  Definition stored_inv (s : shared T W) : Prop :=
    isCached s = true -> In (cachedVal s) (supplied s) \/ exists g v, pcs s g = Flagged v.
  Lemma stored_step s g : origin s -> stored_inv s -> stored_inv (step s g).
  Proof.
    intros (_ & O & _) H. unfold stored_inv, gostep in *. destruct (pcs s g) as [| |v|v|] eqn:P.
    - cbn. intros F. destruct (H F) as [I|(i & v & E)]; [left; exact I|]. right. exists i, v. rewrite goto_other; [exact E|congruence].
    - destruct (supplier (sup s)) as [v w]. cbn. intros F. destruct (H F) as [I|(i & u & E)]; [left; right; exact I|].
      right. exists i, u. rewrite goto_other; [exact E|congruence].
    - cbn. intros _. right. exists g, v. apply goto_same.
    - cbn. intros _. left. eapply O. right; exact P.
    - cbn. intros F. destruct (H F) as [I|(i & v & E)]; [left; exact I|]. right. exists i, v. rewrite goto_other; [exact E|congruence].
  Qed.
  Lemma stored_run l : forall s, origin s -> stored_inv s -> stored_inv (run l s).
  Proof. induction l as [|g l IH]; intros s O H; cbn; auto. apply IH; [apply origin_step, O|apply stored_step; auto]. Qed.

  Lemma pcs_run_other l g : forall s, ~ In g l -> pcs (run l s) g = pcs s g.
  Proof.
    induction l as [|i l IH]; intros s NI; auto. change (run (i :: l) s) with (run l (step s i)). rewrite IH by (intros X; apply NI; right; exact X).
    assert (g <> i) by (intros ->; apply NI; left; reflexivity).
    unfold gostep. destruct (pcs s i); [..|]; try (cbn; rewrite goto_other; auto; fail).
    destruct (supplier (sup s)); cbn; rewrite goto_other; auto.
  Qed.
  (** [n] goroutines that all test before any calls *)
  Lemma run_tests l : forall s, NoDup l -> isCached s = false -> (forall g, In g l -> pcs s g = Outside) ->
    isCached (run l s) = false /\ supplied (run l s) = supplied s /\ (forall g, In g l -> pcs (run l s) g = Missed).
  Proof.
    induction l as [|i l IH]; intros s ND F P; cbn.
    - split; [exact F|]. split; [reflexivity|]. intros g [].
    - inversion ND as [|? ? NI ND']; subst.
      assert (E : step s i = Shared false (cachedVal s) (sup s) (supplied s) (results s) (goto (pcs s) i Missed)).
      { unfold gostep. rewrite (P i (or_introl eq_refl)), F. reflexivity. }
      destruct (IH (step s i)) as (A & B & C); auto.
      { rewrite E. reflexivity. }
      { intros g G. rewrite E. cbn. rewrite goto_other; [apply P; right; exact G|]. intros ->. contradiction. }
      split; [exact A|]. split; [unfold gorun in B; rewrite B, E; reflexivity|]. intros g [<-|G]; [|apply C; exact G].
      change (pcs (run l (step s i)) i = Missed). rewrite pcs_run_other by exact NI. rewrite E. apply goto_same.
  Qed.
  Lemma run_calls l : forall s, NoDup l -> (forall g, In g l -> pcs s g = Missed) ->
    length (supplied (run l s)) = length l + length (supplied s).
  Proof.
    induction l as [|i l IH]; intros s ND P; auto. change (run (i :: l) s) with (run l (step s i)).
    inversion ND as [|? ? NI ND']; subst.
    assert (Q : forall g, In g l -> pcs (step s i) g = Missed).
    { intros g G. change (step s i) with (run [i] s). rewrite pcs_run_other; [apply P; right; exact G|].
      intros [<-|[]]. contradiction. }
    rewrite IH by auto. unfold gostep. rewrite (P i (or_introl eq_refl)).
    destruct (supplier (sup s)). cbn. lia.
  Qed.
End P.
