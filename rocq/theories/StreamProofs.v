From Coq Require Import Permutation Sorting.
From Verif Require Import Base Iter IterSpec IterProofs IterGen IterGenProofs GoInt GoMap Slice Conv ConvSpec ConvProofs
  MathInt MathIntSpec MathIntProofs Stream StreamSpec.
Open Scope nat_scope.

(** ** The pull loop *)
Section Pull.
  Context {S T A R : Type} `{ZT : Zero T}.
  Variable nx : stepfn S T.
  Variable body : A -> T -> outcome (A + R).
  Variable onerr : A -> err -> R.

  Definition pruns (a : A) (s : S) (res : R) (s' : S) : Prop :=
    exists n, forall m loop, n <= m -> n <= loop -> pull_loop nx body onerr loop m a s = Done (res, s').
  Definition ppanics (a : A) (s : S) : Prop :=
    exists n, forall m loop, n <= m -> n <= loop -> pull_loop nx body onerr loop m a s = Panicked.

  (** the body goes on for each of these values *)
  Inductive feeds : A -> list T -> A -> Prop :=
  | feeds_nil a : feeds a [] a
  | feeds_cons a v a1 l a2 : body a v = Done (inl a1) -> feeds a1 l a2 -> feeds a (v :: l) a2.

  Lemma feeds_app a l1 a1 l2 a2 : feeds a l1 a1 -> feeds a1 l2 a2 -> feeds a (l1 ++ l2) a2.
  Proof. induction 1; simpl; intros; auto. econstructor; eauto. Qed.

  Lemma pruns_step a s v s1 a1 res s' :
    returns nx s (v, None) s1 -> body a v = Done (inl a1) -> pruns a1 s1 res s' -> pruns a s res s'.
  Proof.
    intros [n R0] B [n1 P]. exists (Datatypes.S (n + n1)). intros m loop Hm Hl. destruct loop as [|loop]; [lia|].
    cbn [pull_loop]. rewrite R0 by lia. cbn [obind]. rewrite B. cbn [obind]. apply P; lia.
  Qed.

  Lemma ppanics_step a s v s1 a1 :
    returns nx s (v, None) s1 -> body a v = Done (inl a1) -> ppanics a1 s1 -> ppanics a s.
  Proof.
    intros [n R0] B [n1 P]. exists (Datatypes.S (n + n1)). intros m loop Hm Hl. destruct loop as [|loop]; [lia|].
    cbn [pull_loop]. rewrite R0 by lia. cbn [obind]. rewrite B. cbn [obind]. apply P; lia.
  Qed.

  Lemma pull_err a l a' s s1 e s2 :
    feeds a l a' -> emits nx s l s1 -> fails nx s1 e s2 -> pruns a s (onerr a' e) s2.
  Proof.
    intros Fd. revert s. induction Fd as [a|a v a1 l a2 B Fd IH]; intros s E F.
    - inversion E; subst. destruct F as [v [n Hn]]. exists (Datatypes.S n). intros m loop Hm Hl.
      destruct loop as [|loop]; [lia|]. cbn [pull_loop]. rewrite Hn by lia. reflexivity.
    - inversion E as [|? ? s0 ? ? R0 E0]; subst. eapply pruns_step; eauto.
  Qed.

  Lemma pull_stop a l a' s s1 v s2 r :
    feeds a l a' -> emits nx s l s1 -> returns nx s1 (v, None) s2 -> body a' v = Done (inr r) -> pruns a s r s2.
  Proof.
    intros Fd. revert s. induction Fd as [a|a w a1 l a2 B Fd IH]; intros s E [n Hn] Bv.
    - inversion E; subst. exists (Datatypes.S n). intros m loop Hm Hl.
      destruct loop as [|loop]; [lia|]. cbn [pull_loop]. rewrite Hn by lia. cbn [obind]. rewrite Bv. reflexivity.
    - inversion E as [|? ? s0 ? ? R0 E0]; subst. eapply pruns_step; eauto. eapply IH; eauto. exists n; auto.
  Qed.

  Lemma pull_panic a l a' s s1 v s2 :
    feeds a l a' -> emits nx s l s1 -> returns nx s1 (v, None) s2 -> body a' v = Panicked -> ppanics a s.
  Proof.
    intros Fd. revert s. induction Fd as [a|a w a1 l a2 B Fd IH]; intros s E [n Hn] Bv.
    - inversion E; subst. exists (Datatypes.S n). intros m loop Hm Hl.
      destruct loop as [|loop]; [lia|]. cbn [pull_loop]. rewrite Hn by lia. cbn [obind]. rewrite Bv. reflexivity.
    - inversion E as [|? ? s0 ? ? R0 E0]; subst. eapply ppanics_step; eauto. eapply IH; eauto. exists n; auto.
  Qed.
End Pull.

Lemma emits_snoc_inv {S T} (f : stepfn S T) s l v s2 :
  emits f s (l ++ [v]) s2 -> exists s1, emits f s l s1 /\ returns f s1 (v, None) s2.
Proof.
  intros E. apply emits_app_inv in E as (s1 & E1 & E2). inversion E2 as [|? ? s3 ? ? R E3]; subst.
  inversion E3; subst. eauto.
Qed.

Lemma yields_fails {S T} `{Zero T} (f : stepfn S T) s l e :
  yields f s l e -> exists s1 s2, emits f s l s1 /\ fails f s1 e s2.
Proof. intros (s1 & E & K). apply stuck_fails in K as (s2 & F & _). eauto. Qed.

Section Maps.
  Context {S T : Type} `{ZT : Zero T}.
  Variable nx : stepfn S T.

  (** ** Map *)
  Lemma st_map_emits {U C} `{Zero U} (f : C -> T -> U * C) c s l s' :
    emits nx s l s' -> emits (st_map nx f) (s, c) (fst (map_acc f c l)) (s', snd (map_acc f c l)).
  Proof.
    intros E. revert c. induction E as [s|s v s1 l s2 R E IH]; intros c; simpl; [constructor|].
    destruct (f c v) as [u c1] eqn:Fv. specialize (IH c1). destruct (map_acc f c1 l) as [us c2]. simpl in *.
    econstructor; [|exact IH]. destruct R as [n Hn]. exists n. intros m Hm. unfold st_map. rewrite Hn by auto. simpl.
    rewrite Fv. reflexivity.
  Qed.

  Lemma st_map_fails {U C} `{Zero U} (f : C -> T -> U * C) c s e s' :
    fails nx s e s' -> fails (st_map nx f) (s, c) e (s', c).
  Proof. intros [v [n Hn]]. exists zv, n. intros m Hm. unfold st_map. rewrite Hn by auto. reflexivity. Qed.

  Lemma st_map_prefix {U C} `{Zero U} (f : C -> T -> U * C) c s l s' :
    emits nx s l s' ->
    emits (next (st_map nx f)) (ofIter (s, c)) (fst (map_acc f c l)) (ofIter (s', snd (map_acc f c l))).
  Proof. intros. apply ofIter_emits, st_map_emits; auto. Qed.

  Lemma st_map_yields {U C} `{Zero U} (f : C -> T -> U * C) c s l e :
    yields nx s l e -> yields (next (st_map nx f)) (ofIter (s, c)) (fst (map_acc f c l)) e.
  Proof.
    intros Y. apply yields_fails in Y as (s1 & s2 & E & F). eapply ofIter_yields.
    - apply st_map_emits; eauto.
    - apply st_map_fails; eauto.
  Qed.

  Lemma map_acc_pure {U} (f : T -> U) c l : map_acc (pure_map f) c l = (map f l, c).
  Proof. induction l as [|x l IH]; simpl; auto. unfold pure_map in *. rewrite IH. reflexivity. Qed.

  (** ** MapError *)
  Lemma st_map_error_emits {U C} `{Zero U} (f : C -> T -> ret U * C) c s l s' :
    emits nx s l s' -> Forall (fun r => snd r = None) (fst (map_acc f c l)) ->
    emits (st_map_error nx f) (s, c) (map fst (fst (map_acc f c l))) (s', snd (map_acc f c l)).
  Proof.
    intros E. revert c. induction E as [s|s v s1 l s2 R E IH]; intros c; simpl; [constructor|].
    destruct (f c v) as [u c1] eqn:Fv. specialize (IH c1). destruct (map_acc f c1 l) as [us c2]. simpl in *.
    intros Fa. inversion Fa as [|? ? Hu Hus]; subst. destruct u as [mv me]. simpl in Hu. subst me.
    econstructor; [|auto]. destruct R as [n Hn]. exists n. intros m Hm. unfold st_map_error. rewrite Hn by auto. simpl.
    rewrite Fv. reflexivity.
  Qed.

  Lemma st_map_error_fails {U C} `{Zero U} (f : C -> T -> ret U * C) c s e s' :
    fails nx s e s' -> fails (st_map_error nx f) (s, c) e (s', c).
  Proof. intros [v [n Hn]]. exists zv, n. intros m Hm. unfold st_map_error. rewrite Hn by auto. reflexivity. Qed.

  Lemma st_map_error_reject {U C} `{Zero U} (f : C -> T -> ret U * C) c s v s' u e c' :
    returns nx s (v, None) s' -> f c v = ((u, Some e), c') -> fails (st_map_error nx f) (s, c) e (s', c').
  Proof.
    intros [n Hn] Fv. exists zv, n. intros m Hm. unfold st_map_error. rewrite Hn by auto. simpl. rewrite Fv. reflexivity.
  Qed.

  Lemma st_map_error_yields {U C} `{Zero U} (f : C -> T -> ret U * C) c s l e :
    yields nx s l e -> Forall (fun r => snd r = None) (fst (map_acc f c l)) ->
    yields (next (st_map_error nx f)) (ofIter (s, c)) (map fst (fst (map_acc f c l))) e.
  Proof.
    intros Y Fa. apply yields_fails in Y as (s1 & s2 & E & F). eapply ofIter_yields.
    - apply st_map_error_emits; eauto.
    - apply st_map_error_fails; eauto.
  Qed.

  (** f rejects the value after [l]: the values so far, then f's error for ever; the source stays where it was *)
  Lemma st_map_error_rejects {U C} `{Zero U} (f : C -> T -> ret U * C) c s l v s' u e c' :
    emits nx s (l ++ [v]) s' -> Forall (fun r => snd r = None) (fst (map_acc f c l)) ->
    f (snd (map_acc f c l)) v = ((u, Some e), c') ->
    exists it, emits (next (st_map_error nx f)) (ofIter (s, c)) (map fst (fst (map_acc f c l))) it /\
      returns (next (st_map_error nx f)) it (zv, Some e) (dead (s', c') e) /\
      stuck (next (st_map_error nx f)) (dead (s', c') e) e.
  Proof.
    intros E Fa Fv. apply emits_snoc_inv in E as (s1 & E1 & R). exists (ofIter (s1, snd (map_acc f c l))).
    split; [apply ofIter_emits, st_map_error_emits; auto|].
    split; [|apply dead_stuck]. apply next_error. eapply st_map_error_reject; eauto.
  Qed.

  (** ** Peek *)
  Lemma st_peek_emits {C} (f : C -> T -> C) c s l s' :
    emits nx s l s' -> emits (st_peek nx f) (s, c) l (s', fold_left f l c).
  Proof.
    intros E. revert c. induction E as [s|s v s1 l s2 R E IH]; intros c; simpl; [constructor|].
    econstructor; [|apply IH]. destruct R as [n Hn]. exists n. intros m Hm. unfold st_peek. rewrite Hn by auto. reflexivity.
  Qed.

  Lemma st_peek_fails {C} (f : C -> T -> C) c s e s' : fails nx s e s' -> fails (st_peek nx f) (s, c) e (s', c).
  Proof. intros [v [n Hn]]. exists zv, n. intros m Hm. unfold st_peek. rewrite Hn by auto. reflexivity. Qed.

  Lemma st_peek_yields {C} (f : C -> T -> C) c s l e :
    yields nx s l e -> yields (next (st_peek nx f)) (ofIter (s, c)) l e.
  Proof.
    intros Y. apply yields_fails in Y as (s1 & s2 & E & F). eapply ofIter_yields.
    - apply st_peek_emits; eauto.
    - apply st_peek_fails; eauto.
  Qed.

  (** ** Filter *)
  Definition filter_body {C} (p : C -> T -> bool * C) : C -> T -> outcome (C + (ret T * C)) :=
    fun c val => let '(ok, c') := p c val in Done (if ok : bool then inr ((val, None), c') else inl c').

  Lemma filter_none_feeds {C} (p : C -> T -> bool * C) c l :
    fst (filter_acc p c l) = [] -> feeds (filter_body p) c l (snd (filter_acc p c l)).
  Proof.
    revert c. induction l as [|x l IH]; intros c; simpl; [constructor|].
    destruct (p c x) as [b c1] eqn:Px. specialize (IH c1). destruct (filter_acc p c1 l) as [us c2]. simpl in *.
    destruct b; [discriminate|]. intros ->. econstructor; [|auto]. unfold filter_body. rewrite Px. reflexivity.
  Qed.

  Lemma st_filter_fails {C} (p : C -> T -> bool * C) c s l s1 e s2 :
    emits nx s l s1 -> fst (filter_acc p c l) = [] -> fails nx s1 e s2 ->
    fails (st_filter nx p) (s, c) e (s2, snd (filter_acc p c l)).
  Proof.
    intros E N F. pose proof (pull_err nx (filter_body p) (fun c e => ((zv, Some e), c)) _ _ _ _ _ _ _
      (filter_none_feeds p c l N) E F) as [n P].
    exists zv, n. intros m Hm. unfold st_filter. change (fun (c0 : C) (val : T) => _) with (filter_body p).
    rewrite P by lia. reflexivity.
  Qed.

  Lemma st_filter_value {C} (p : C -> T -> bool * C) c s l s1 v s2 c2 :
    emits nx s l s1 -> fst (filter_acc p c l) = [] -> returns nx s1 (v, None) s2 ->
    p (snd (filter_acc p c l)) v = (true, c2) ->
    returns (st_filter nx p) (s, c) (v, None) (s2, c2).
  Proof.
    intros E N R Pv. assert (B : filter_body p (snd (filter_acc p c l)) v = Done (inr ((v, None), c2))).
    { unfold filter_body. rewrite Pv. reflexivity. }
    pose proof (pull_stop nx (filter_body p) (fun c e => ((zv, Some e), c)) _ _ _ _ _ _ _ _
      (filter_none_feeds p c l N) E R B) as [n P].
    exists n. intros m Hm. unfold st_filter. change (fun (c0 : C) (val : T) => _) with (filter_body p).
    rewrite P by lia. reflexivity.
  Qed.

  Lemma filter_acc_app {C} (p : C -> T -> bool * C) c l1 l2 :
    filter_acc p c (l1 ++ l2) =
    (fst (filter_acc p c l1) ++ fst (filter_acc p (snd (filter_acc p c l1)) l2),
     snd (filter_acc p (snd (filter_acc p c l1)) l2)).
  Proof.
    revert c. induction l1 as [|x l1 IH]; intros c; simpl; [destruct (filter_acc p c l2); reflexivity|].
    destruct (p c x) as [b c1]. rewrite IH. destruct (filter_acc p c1 l1) as [us c2]. simpl.
    destruct b; reflexivity.
  Qed.

  Lemma st_filter_split {C} (p : C -> T -> bool * C) l : forall c s s',
    emits nx s l s' ->
    exists l1 l2 sm, l = l1 ++ l2 /\ emits nx s l1 sm /\ emits nx sm l2 s' /\
      emits (st_filter nx p) (s, c) (fst (filter_acc p c l)) (sm, snd (filter_acc p c l1)) /\
      fst (filter_acc p (snd (filter_acc p c l1)) l2) = [].
  Proof.
    induction l as [|v l IH] using rev_ind; intros c s s' E.
    - inversion E; subst. exists [], [], s'. repeat split; try constructor.
    - apply emits_snoc_inv in E as (s1 & E1 & R).
      destruct (IH c s s1 E1) as (l1 & l2 & sm & -> & A & B & D & F).
      rewrite filter_acc_app. simpl.
      assert (FA : snd (filter_acc p c (l1 ++ l2)) = snd (filter_acc p (snd (filter_acc p c l1)) l2)).
      { rewrite filter_acc_app. reflexivity. }
      destruct (p (snd (filter_acc p c (l1 ++ l2))) v) as [b c1] eqn:Pv. destruct b; simpl.
      + exists ((l1 ++ l2) ++ [v]), [], s'. rewrite app_nil_r. split; auto.
        split; [eapply emits_app; [exact E1|apply emits_one; auto]|]. split; [constructor|]. split; [|reflexivity].
        eapply emits_app; [exact D|]. rewrite (filter_acc_app p c (l1 ++ l2)). simpl. rewrite Pv. simpl.
        apply emits_one. eapply st_filter_value; eauto. rewrite <- FA. exact Pv.
      + exists l1, (l2 ++ [v]), sm. rewrite app_nil_r. split; [rewrite app_assoc; reflexivity|]. split; auto.
        split; [eapply emits_app; [exact B|apply emits_one; auto]|]. split; auto.
        rewrite filter_acc_app. simpl. rewrite F. simpl. rewrite <- FA, Pv. reflexivity.
  Qed.

  Lemma st_filter_yields {C} (p : C -> T -> bool * C) c s l e :
    yields nx s l e -> yields (next (st_filter nx p)) (ofIter (s, c)) (fst (filter_acc p c l)) e.
  Proof.
    intros Y. apply yields_fails in Y as (s1 & s2 & E & F).
    destruct (st_filter_split p l c s s1 E) as (l1 & l2 & sm & -> & A & B & D & N).
    eapply ofIter_yields; [exact D|]. eapply st_filter_fails; eauto.
  Qed.

  (** up to an accepted value, the source is pulled exactly up to that value *)
  Lemma st_filter_prefix {C} (p : C -> T -> bool * C) c s l v s' c' :
    emits nx s (l ++ [v]) s' -> p (snd (filter_acc p c l)) v = (true, c') ->
    emits (next (st_filter nx p)) (ofIter (s, c)) (fst (filter_acc p c l) ++ [v]) (ofIter (s', c')).
  Proof.
    intros E Pv. apply emits_snoc_inv in E as (s1 & E1 & R).
    destruct (st_filter_split p l c s s1 E1) as (l1 & l2 & sm & -> & A & B & D & N).
    apply ofIter_emits. eapply emits_app; [exact D|]. apply emits_one. eapply st_filter_value; eauto.
    rewrite filter_acc_app in Pv. exact Pv.
  Qed.

  Lemma filter_acc_pure (p : T -> bool) c l : filter_acc (pure_map p) c l = (filter p l, c).
  Proof. induction l as [|x l IH]; simpl; auto. unfold pure_map in *. rewrite IH. destruct (p x); reflexivity. Qed.

  (** ** One-shot transforms *)
  Lemma one_shot {St U} `{Zero U} (fn : stepfn St U) st0 v st1 st2 :
    returns fn st0 (v, None) st1 -> fails fn st1 EOI st2 -> yields (next fn) (ofIter st0) [v] EOI.
  Proof. intros R F. eapply ofIter_yields; [apply emits_one; eauto|eauto]. Qed.

  Lemma foldl_feeds {U R} (f : U -> T -> U) acc l :
    feeds (R := R) (fun acc val => Done (inl (f acc val))) acc l (fold_left f l acc).
  Proof. revert acc. induction l as [|x l IH]; intros acc; simpl; [constructor|]. econstructor; eauto. Qed.

  Lemma reduce_loop_eoi {U} `{Zero U} (f : U -> T -> U) acc s l s1 s2 :
    emits nx s l s1 -> fails nx s1 EOI s2 ->
    exists n, forall m, n <= m -> reduce_loop nx f acc m s = Done ((fold_left f l acc, None), (true, s2)).
  Proof.
    intros E F. destruct (pull_err nx (fun acc val => Done (inl (f acc val)))
      (fun acc e => match e with EOI => (acc, None) | _ => (zv, Some e) end) _ _ _ _ _ _ _ (foldl_feeds f acc l) E F) as [n P].
    exists n. intros m Hm. unfold reduce_loop. rewrite P by lia. reflexivity.
  Qed.

  Lemma reduce_loop_err {U} `{Zero U} (f : U -> T -> U) acc s l s1 e s2 :
    emits nx s l s1 -> fails nx s1 e s2 -> e <> EOI ->
    exists n, forall m, n <= m -> reduce_loop nx f acc m s = Done ((zv, Some e), (true, s2)).
  Proof.
    intros E F Ne. destruct (pull_err nx (fun acc val => Done (inl (f acc val)))
      (fun acc e => match e with EOI => (acc, None) | _ => (zv, Some e) end) _ _ _ _ _ _ _ (foldl_feeds f acc l) E F) as [n P].
    exists n. intros m Hm. unfold reduce_loop. rewrite P by lia. destruct e; try reflexivity; congruence.
  Qed.

  (** Reduce and ReduceTo agree on the identity case; both are stated through this lemma. *)
  Lemma reduce_done {U} `{Zero U} (f : U -> T -> U) ids s :
    fails (st_reduce_to nx f ids) (true, s) EOI (true, s).
  Proof. exists zv, 0. reflexivity. Qed.

  Lemma reduce_done' (f : T -> T -> T) ids s : fails (st_reduce nx f ids) (true, s) EOI (true, s).
  Proof. exists zv, 0. reflexivity. Qed.

  (** with an identity *)
  Lemma reduce_to_id {U} `{Zero U} (f : U -> T -> U) id ids s l :
    yields nx s l EOI -> yields (next (st_reduce_to nx f (id :: ids))) (ofIter (false, s)) [fold_left f l id] EOI.
  Proof.
    intros Y. apply yields_fails in Y as (s1 & s2 & E & F). eapply one_shot; [|apply reduce_done].
    instantiate (1 := s2). destruct E as [s|s v s0 l s1 [n Hn] E].
    - destruct F as [v [n Hn]]. exists n. intros m Hm. unfold st_reduce_to. rewrite Hn by auto. reflexivity.
    - destruct (reduce_loop_eoi f (f id v) _ _ _ _ E F) as [n2 P]. exists (n + n2). intros m Hm.
      unfold st_reduce_to. rewrite Hn by lia. cbn [obind]. rewrite P by lia. reflexivity.
  Qed.

  Lemma reduce_id (f : T -> T -> T) id ids s l :
    yields nx s l EOI -> yields (next (st_reduce nx f (id :: ids))) (ofIter (false, s)) [fold_left f l id] EOI.
  Proof.
    intros Y. apply yields_fails in Y as (s1 & s2 & E & F). eapply one_shot; [|apply reduce_done'].
    instantiate (1 := s2). destruct E as [s|s v s0 l s1 [n Hn] E].
    - destruct F as [v [n Hn]]. exists n. intros m Hm. unfold st_reduce. rewrite Hn by auto. reflexivity.
    - destruct (reduce_loop_eoi f (f id v) _ _ _ _ E F) as [n2 P]. exists (n + n2). intros m Hm.
      unfold st_reduce. rewrite Hn by lia. cbn [obind]. rewrite P by lia. reflexivity.
  Qed.

  (** without one *)
  Lemma reduce_to_empty {U} `{Zero U} (f : U -> T -> U) s :
    yields nx s [] EOI -> yields (next (st_reduce_to nx f [])) (ofIter (false, s)) [] EOI.
  Proof.
    intros Y. apply yields_fails in Y as (s1 & s2 & E & [v [n Hn]]). inversion E; subst.
    eapply ofIter_yields; [constructor|]. exists zv, n. intros m Hm. unfold st_reduce_to. rewrite Hn by auto. reflexivity.
  Qed.

  Lemma reduce_empty (f : T -> T -> T) s :
    yields nx s [] EOI -> yields (next (st_reduce nx f [])) (ofIter (false, s)) [] EOI.
  Proof.
    intros Y. apply yields_fails in Y as (s1 & s2 & E & [v [n Hn]]). inversion E; subst.
    eapply ofIter_yields; [constructor|]. exists zv, n. intros m Hm. unfold st_reduce. rewrite Hn by auto. reflexivity.
  Qed.

  Lemma reduce_to_zero {U} `{Zero U} (f : U -> T -> U) s x l :
    yields nx s (x :: l) EOI -> yields (next (st_reduce_to nx f [])) (ofIter (false, s)) [fold_left f (x :: l) zv] EOI.
  Proof.
    intros Y. apply yields_fails in Y as (s1 & s2 & E & F). eapply one_shot; [|apply reduce_done].
    instantiate (1 := s2). inversion E as [|? ? s0 ? ? [n Hn] E']; subst.
    destruct (reduce_loop_eoi f (f zv x) _ _ _ _ E' F) as [n2 P]. exists (n + n2). intros m Hm.
    unfold st_reduce_to. rewrite Hn by lia. cbn [obind]. rewrite P by lia. reflexivity.
  Qed.

  Lemma reduce_noid (f : T -> T -> T) s x l :
    yields nx s (x :: l) EOI -> yields (next (st_reduce nx f [])) (ofIter (false, s)) [fold_left f l x] EOI.
  Proof.
    intros Y. apply yields_fails in Y as (s1 & s2 & E & F). eapply one_shot; [|apply reduce_done'].
    instantiate (1 := s2). inversion E as [|? ? s0 ? ? [n Hn] E']; subst.
    destruct (reduce_loop_eoi f x _ _ _ _ E' F) as [n2 P]. exists (n + n2). intros m Hm.
    unfold st_reduce. rewrite Hn by lia. cbn [obind]. rewrite P by lia. reflexivity.
  Qed.

  (** a failing source *)
  Lemma reduce_to_err {U} `{Zero U} (f : U -> T -> U) ids s l e :
    yields nx s l e -> e <> EOI -> yields (next (st_reduce_to nx f ids)) (ofIter (false, s)) [] e.
  Proof.
    intros Y Ne. apply yields_fails in Y as (s1 & s2 & E & F). eapply ofIter_yields; [constructor|].
    instantiate (1 := (true, s2)). destruct E as [s|s v s0 l s1 [n Hn] E].
    - destruct F as [v [n Hn]]. exists zv, n. intros m Hm. unfold st_reduce_to. rewrite Hn by auto.
      destruct ids; [reflexivity|]. destruct e; try reflexivity; congruence.
    - destruct ids as [|id ids].
      + destruct (reduce_loop_err f (f zv v) _ _ _ _ _ E F Ne) as [n2 P]. exists zv, (n + n2). intros m Hm.
        unfold st_reduce_to. rewrite Hn by lia. cbn [obind]. rewrite P by lia. reflexivity.
      + destruct (reduce_loop_err f (f id v) _ _ _ _ _ E F Ne) as [n2 P]. exists zv, (n + n2). intros m Hm.
        unfold st_reduce_to. rewrite Hn by lia. cbn [obind]. rewrite P by lia. reflexivity.
  Qed.

  Lemma reduce_err (f : T -> T -> T) ids s l e :
    yields nx s l e -> e <> EOI -> yields (next (st_reduce nx f ids)) (ofIter (false, s)) [] e.
  Proof.
    intros Y Ne. apply yields_fails in Y as (s1 & s2 & E & F). eapply ofIter_yields; [constructor|].
    instantiate (1 := (true, s2)). destruct E as [s|s v s0 l s1 [n Hn] E].
    - destruct F as [v [n Hn]]. exists zv, n. intros m Hm. unfold st_reduce. rewrite Hn by auto.
      destruct ids; [reflexivity|]. destruct e; try reflexivity; congruence.
    - destruct ids as [|id ids].
      + destruct (reduce_loop_err f v _ _ _ _ _ E F Ne) as [n2 P]. exists zv, (n + n2). intros m Hm.
        unfold st_reduce. rewrite Hn by lia. cbn [obind]. rewrite P by lia. reflexivity.
      + destruct (reduce_loop_err f (f id v) _ _ _ _ _ E F Ne) as [n2 P]. exists zv, (n + n2). intros m Hm.
        unfold st_reduce. rewrite Hn by lia. cbn [obind]. rewrite P by lia. reflexivity.
  Qed.

  (** ** ReduceToBool *)
  Definition bool_body (p : T -> bool) (stop : bool) : bool -> T -> outcome (bool + ret bool) :=
    fun _ val => let result := p val in Done (if Bool.eqb result stop then inr (result, None) else inl result).
  Definition bool_onerr : bool -> err -> ret bool :=
    fun result e => match e with EOI => (result, None) | _ => (false, Some e) end.

  Lemma bool_feeds p stop l r : r = negb stop -> Forall (fun x => p x <> stop) l -> feeds (bool_body p stop) r l (negb stop).
  Proof.
    intros ->. induction 1 as [|x l Px Fl IH]; [constructor|]. econstructor; [|exact IH].
    unfold bool_body. destruct (p x), stop; simpl in *; try reflexivity; congruence.
  Qed.

  Lemma bool_done p ident stop s : fails (st_reduce_bool nx p ident stop) (true, s) EOI (true, s).
  Proof. exists false, 0. reflexivity. Qed.

  (** stops exactly at the first decisive value *)
  Lemma bool_stop p ident stop s l v s' :
    emits nx s (l ++ [v]) s' -> Forall (fun x => p x <> stop) l -> p v = stop ->
    returns (st_reduce_bool nx p ident stop) (false, s) (stop, None) (true, s').
  Proof.
    intros E Fl Pv. destruct l as [|x l]; simpl in E.
    - inversion E as [|? ? s0 ? ? [n Hn] E']; subst. inversion E'; subst. exists n. intros m Hm.
      unfold st_reduce_bool. rewrite Hn by auto. cbn [obind]. rewrite Bool.eqb_reflx. reflexivity.
    - inversion E as [|? ? s0 ? ? [n Hn] E']; subst. inversion Fl as [|? ? Px Fl']; subst.
      apply emits_snoc_inv in E' as (s1 & E1 & R).
      destruct (pull_stop nx (bool_body p (p v)) bool_onerr (p x) l (negb (p v)) s0 s1 v s' (p v, None)) as [n2 P]; auto.
      { apply bool_feeds; auto. destruct (p x), (p v); simpl; congruence. }
      { unfold bool_body. rewrite Bool.eqb_reflx. reflexivity. }
      exists (n + n2). intros m Hm. unfold st_reduce_bool. rewrite Hn by lia. cbn [obind].
      destruct (Bool.eqb (p x) (p v)) eqn:Q; [apply Bool.eqb_prop in Q; congruence|].
      change (fun (_ : bool) (val : T) => _) with (bool_body p (p v)).
      change (fun (result : bool) (e : err) => _) with bool_onerr. rewrite P by lia. reflexivity.
  Qed.

  Lemma bool_eoi p ident stop s l s1 s2 :
    emits nx s l s1 -> fails nx s1 EOI s2 -> Forall (fun x => p x <> stop) l ->
    returns (st_reduce_bool nx p ident stop) (false, s) (match l with [] => ident | _ => negb stop end, None) (true, s2).
  Proof.
    intros E F Fl. destruct E as [s|s v s0 l s1 [n Hn] E].
    - destruct F as [v [n Hn]]. exists n. intros m Hm. unfold st_reduce_bool. rewrite Hn by auto. reflexivity.
    - inversion Fl as [|? ? Px Fl']; subst.
      destruct (pull_err nx (bool_body p stop) bool_onerr (p v) l (negb stop) s0 s1 EOI s2) as [n2 P]; auto.
      { apply bool_feeds; auto. destruct (p v), stop; simpl; congruence. }
      exists (n + n2). intros m Hm. unfold st_reduce_bool. rewrite Hn by lia. cbn [obind].
      destruct (Bool.eqb (p v) stop) eqn:Q; [apply Bool.eqb_prop in Q; congruence|].
      change (fun (_ : bool) (val : T) => _) with (bool_body p stop).
      change (fun (result : bool) (e : err) => _) with bool_onerr. rewrite P by lia. reflexivity.
  Qed.

  Lemma bool_err p ident stop s l s1 e s2 :
    emits nx s l s1 -> fails nx s1 e s2 -> e <> EOI -> Forall (fun x => p x <> stop) l ->
    fails (st_reduce_bool nx p ident stop) (false, s) e (true, s2).
  Proof.
    intros E F Ne Fl. destruct E as [s|s v s0 l s1 [n Hn] E].
    - destruct F as [v [n Hn]]. exists false, n. intros m Hm. unfold st_reduce_bool. rewrite Hn by auto.
      destruct e; try reflexivity; congruence.
    - inversion Fl as [|? ? Px Fl']; subst.
      destruct (pull_err nx (bool_body p stop) bool_onerr (p v) l (negb stop) s0 s1 e s2) as [n2 P]; auto.
      { apply bool_feeds; auto. destruct (p v), stop; simpl; congruence. }
      exists false, (n + n2). intros m Hm. unfold st_reduce_bool. rewrite Hn by lia. cbn [obind].
      destruct (Bool.eqb (p v) stop) eqn:Q; [apply Bool.eqb_prop in Q; congruence|].
      change (fun (_ : bool) (val : T) => _) with (bool_body p stop).
      change (fun (result : bool) (e : err) => _) with bool_onerr. rewrite P by lia.
      destruct e; try reflexivity; congruence.
  Qed.

  Lemma emits_split s l1 x l2 s' : emits nx s (l1 ++ x :: l2) s' -> exists s1, emits nx s (l1 ++ [x]) s1.
  Proof.
    intros E. replace (l1 ++ x :: l2) with ((l1 ++ [x]) ++ l2) in E by (rewrite <- app_assoc; reflexivity).
    apply emits_app_inv in E as (s1 & E1 & _). eauto.
  Qed.

  Lemma first_hit (p : T -> bool) stop l :
    Forall (fun x => p x <> stop) l \/ exists l1 x l2, l = l1 ++ x :: l2 /\ Forall (fun x => p x <> stop) l1 /\ p x = stop.
  Proof.
    induction l as [|x l [IH|(l1 & y & l2 & -> & F & P)]]; [left; constructor| |].
    - destruct (Bool.bool_dec (p x) stop) as [Q|Q]; [right; exists [], x, l; auto|left; constructor; auto].
    - destruct (Bool.bool_dec (p x) stop) as [Q|Q]; right.
      + exists [], x, (l1 ++ y :: l2). auto.
      + exists (x :: l1), y, l2. auto.
  Qed.

  (** with the decisive value [stop] giving the result [stop], and identity the other one *)
  Lemma bool_yields p stop s l :
    yields nx s l EOI ->
    yields (next (st_reduce_bool nx p (negb stop) stop)) (ofIter (false, s))
      [if existsb (fun x => Bool.eqb (p x) stop) l then stop else negb stop] EOI.
  Proof.
    intros Y. apply yields_fails in Y as (s1 & s2 & E & F).
    destruct (first_hit p stop l) as [Fl|(l1 & x & l2 & -> & Fl & P)].
    - replace (existsb (fun x => Bool.eqb (p x) stop) l) with false.
      2: { symmetry. clear E. induction Fl as [|x l Px Fl IH]; simpl; auto. rewrite IH.
           destruct (Bool.eqb (p x) stop) eqn:Q; auto. apply Bool.eqb_prop in Q. contradiction. }
      eapply one_shot; [|apply bool_done].
      pose proof (bool_eoi p (negb stop) stop _ _ _ _ E F Fl) as R. destruct l; exact R.
    - replace (existsb (fun x => Bool.eqb (p x) stop) (l1 ++ x :: l2)) with true.
      2: { symmetry. apply existsb_exists. exists x. split; [apply in_app_iff; simpl; auto|]. rewrite P. apply Bool.eqb_reflx. }
      apply emits_split in E as (s3 & E). eapply one_shot; [|apply bool_done]. eapply bool_stop; eauto.
  Qed.

  (** ** ReduceToSlice *)
  Lemma slice_feeds {R} l acc :
    feeds (R := R) (fun (slc : list T) (val : T) => Done (inl (slc ++ [val]))) acc l (acc ++ l).
  Proof.
    revert acc. induction l as [|x l IH]; intros acc; [rewrite app_nil_r; constructor|].
    econstructor; [reflexivity|]. replace (acc ++ x :: l) with ((acc ++ [x]) ++ l) by (rewrite <- app_assoc; reflexivity). apply IH.
  Qed.

  Lemma to_slice_eoi s l s1 s2 : emits nx s l s1 -> fails nx s1 EOI s2 ->
    returns (st_to_slice nx) (false, s) (l, None) (true, s2).
  Proof.
    intros E F. destruct (pull_err nx (fun slc val => Done (inl (slc ++ [val])))
      (fun (slc : list T) e => match e with EOI => (slc, None) | _ => ([], Some e) end) _ _ _ _ _ _ _ (slice_feeds l []) E F) as [n P].
    exists n. intros m Hm. unfold st_to_slice. rewrite P by lia. reflexivity.
  Qed.

  Lemma to_slice_err s l s1 e s2 : emits nx s l s1 -> fails nx s1 e s2 -> e <> EOI ->
    fails (st_to_slice nx) (false, s) e (true, s2).
  Proof.
    intros E F Ne. destruct (pull_err nx (fun slc val => Done (inl (slc ++ [val])))
      (fun (slc : list T) e => match e with EOI => (slc, None) | _ => ([], Some e) end) _ _ _ _ _ _ _ (slice_feeds l []) E F) as [n P].
    exists [], n. intros m Hm. unfold st_to_slice. rewrite P by lia. destruct e; try reflexivity; congruence.
  Qed.

  Lemma to_slice_yields s l : yields nx s l EOI -> yields (next (st_to_slice nx)) (ofIter (false, s)) [l] EOI.
  Proof.
    intros Y. apply yields_fails in Y as (s1 & s2 & E & F). eapply one_shot; [eapply to_slice_eoi; eauto|].
    exists [], 0. reflexivity.
  Qed.

  Lemma to_slice_yields_err s l e : yields nx s l e -> e <> EOI -> yields (next (st_to_slice nx)) (ofIter (false, s)) [] e.
  Proof.
    intros Y Ne. apply yields_fails in Y as (s1 & s2 & E & F). eapply ofIter_yields; [constructor|]. eapply to_slice_err; eauto.
  Qed.

  (** ** ReduceIntoSlice *)
  Definition into_body : nat * list T -> T -> outcome ((nat * list T) + (ret (list T) * (nat * list T))) :=
    fun a val => let '(i, slc) := a in
         match set_nth slc i val with Some slc' => Done (inl (i + 1, slc')) | None => Panicked end.

  Lemma into_feeds l : forall pre rest, length l <= length rest ->
    feeds into_body (length pre, pre ++ rest) l (length pre + length l, pre ++ l ++ skipn (length l) rest).
  Proof.
    induction l as [|v l IH]; intros pre rest H; simpl.
    - rewrite Nat.add_0_r. constructor.
    - destruct rest as [|r rest]; simpl in H; [lia|].
      econstructor. { unfold into_body. rewrite set_nth_app. reflexivity. }
      specialize (IH (pre ++ [v]) rest ltac:(lia)). rewrite app_length in IH. simpl in IH.
      rewrite <- !app_assoc in IH. simpl in IH. rewrite <- Nat.add_assoc in IH. exact IH.
  Qed.

  Definition into_onerr : nat * list T -> err -> ret (list T) * (nat * list T) :=
    fun a e => let '(i, slc) := a in
         match e with
         | EOI => ((slc, None), (i, slc))
         | _ => let slc' := map (fun _ => zv) slc in ((slc', Some e), (i, slc'))
         end.

  Lemma into_unfold fuel st : st_into_slice nx fuel st =
    let '(done, i, slc, s) := st in
    if (done : bool) then Done (([], Some EOI), (done, i, slc, s)) else
    obind (pull_loop nx into_body into_onerr fuel fuel (i, slc) s) (fun '(r, s') =>
    let '(res, (i', slc')) := r in Done (res, (true, i', slc', s'))).
  Proof. reflexivity. Qed.

  Lemma into_eoi slc s l s1 s2 : emits nx s l s1 -> fails nx s1 EOI s2 -> length l <= length slc ->
    returns (st_into_slice nx) (false, 0, slc, s) (l ++ skipn (length l) slc, None)
      (true, length l, l ++ skipn (length l) slc, s2).
  Proof.
    intros E F H. destruct (pull_err nx into_body into_onerr _ _ _ _ _ _ _ (into_feeds l [] slc H) E F) as [n P].
    exists n. intros m Hm. rewrite into_unfold. cbn [length app] in P. rewrite P by lia. reflexivity.
  Qed.

  Lemma into_err slc s l s1 e s2 : emits nx s l s1 -> fails nx s1 e s2 -> e <> EOI -> length l <= length slc ->
    fails (st_into_slice nx) (false, 0, slc, s) e (true, length l, map (fun _ => zv) slc, s2).
  Proof.
    intros E F Ne H. destruct (pull_err nx into_body into_onerr _ _ _ _ _ _ _ (into_feeds l [] slc H) E F) as [n P].
    exists (map (fun _ => zv) slc), n. intros m Hm. rewrite into_unfold. cbn [length app] in P. rewrite P by lia.
    assert (Q : map (fun _ : T => (zv : T)) (l ++ skipn (length l) slc) = map (fun _ => zv) slc).
    { assert (C : forall a b : list T, length a = length b -> map (fun _ : T => (zv : T)) a = map (fun _ => zv) b).
      { induction a; destruct b; simpl; intros X; try lia; auto. f_equal. apply IHa. lia. }
      apply C. rewrite app_length, skipn_length. lia. }
    destruct e; simpl; try congruence; rewrite Q; reflexivity.
  Qed.

  Lemma into_panic slc s l v s' : emits nx s (l ++ [v]) s' -> length l = length slc ->
    panics (st_into_slice nx) (false, 0, slc, s).
  Proof.
    intros E H. apply emits_snoc_inv in E as (s1 & E1 & R).
    destruct (pull_panic nx into_body into_onerr _ _ _ _ _ v _ (into_feeds l [] slc ltac:(lia)) E1 R) as [n P].
    { unfold into_body. cbn [length app Nat.add]. rewrite set_nth_none; auto. rewrite app_length, skipn_length. lia. }
    exists n. intros m Hm. rewrite into_unfold. cbn [length app] in P. rewrite P by lia. reflexivity.
  Qed.

  (** ** Skip and Limit *)
  Lemma skip_loop_ok l : forall s s1, emits nx s l s1 ->
    exists n, forall m, n <= m -> skip_loop nx (length l) m s = Done (None, (0, s1)).
  Proof.
    induction l as [|v l IH]; intros s s1 E; inversion E as [|? ? s0 ? ? [n Hn] E']; subst.
    - exists 0. reflexivity.
    - destruct (IH _ _ E') as [n2 P]. exists (n + n2). intros m Hm. cbn [length skip_loop]. rewrite Hn by lia. apply P; lia.
  Qed.

  Lemma skip_loop_err l : forall k s s1 e s2, emits nx s l s1 -> fails nx s1 e s2 -> length l < k ->
    exists n, forall m, n <= m -> skip_loop nx k m s = Done (Some e, (0, s2)).
  Proof.
    induction l as [|v l IH]; intros k s s1 e s2 E F H; inversion E as [|? ? s0 ? ? [n Hn] E']; subst.
    - destruct F as [v [n Hn]]. destruct k as [|k]; simpl in H; [lia|]. exists n. intros m Hm. cbn [skip_loop].
      rewrite Hn by auto. reflexivity.
    - destruct k as [|k]; simpl in H; [lia|].
      destruct (IH k _ _ _ _ E' F ltac:(lia)) as [n2 P]. exists (n + n2). intros m Hm. cbn [skip_loop]. rewrite Hn by lia. apply P; lia.
  Qed.

  Lemma skip0_emits s l s' : emits nx s l s' -> emits (st_skip nx) (0, s) l (0, s').
  Proof.
    induction 1 as [|s v s1 l s2 [n Hn] E IH]; [constructor|]. econstructor; [|exact IH].
    exists n. intros m Hm. unfold st_skip. cbn [skip_loop obind fst snd]. rewrite Hn by auto. reflexivity.
  Qed.

  Lemma skip0_fails s e s' : fails nx s e s' -> fails (st_skip nx) (0, s) e (0, s').
  Proof. intros [v [n Hn]]. exists zv, n. intros m Hm. unfold st_skip. cbn [skip_loop obind fst snd]. rewrite Hn by auto. reflexivity. Qed.

  (** the first call skips and returns the next value *)
  Lemma skip_first l s s1 v s2 : emits nx s l s1 -> returns nx s1 (v, None) s2 ->
    returns (st_skip nx) (length l, s) (v, None) (0, s2).
  Proof.
    intros E [n Hn]. destruct (skip_loop_ok l s s1 E) as [n2 P]. exists (n + n2). intros m Hm. unfold st_skip.
    rewrite P by lia. cbn [obind fst snd]. rewrite Hn by lia. reflexivity.
  Qed.

  Lemma skip_emits k s l s' : emits nx s l s' -> k < length l ->
    emits (next (st_skip nx)) (ofIter (k, s)) (skipn k l) (ofIter (0, s')).
  Proof.
    intros E H. apply ofIter_emits. rewrite <- (firstn_skipn k l) in E. apply emits_app_inv in E as (s1 & E1 & E2).
    assert (L : length (firstn k l) = k) by (rewrite firstn_length; lia).
    destruct (skipn k l) as [|v r] eqn:Sk. { assert (length (skipn k l) = 0) by (rewrite Sk; reflexivity). rewrite skipn_length in H0. lia. }
    inversion E2 as [|? ? s2 ? ? R E3]; subst. econstructor; [|apply skip0_emits; exact E3].
    rewrite <- L at 1. eapply skip_first; eauto.
  Qed.

  Lemma skip_yields k s l e : yields nx s l e -> yields (next (st_skip nx)) (ofIter (k, s)) (skipn k l) e.
  Proof.
    intros Y. apply yields_fails in Y as (s1 & s2 & E & F). destruct (Nat.le_gt_cases (length l) k) as [H|H].
    - rewrite skipn_all2 by auto. eapply ofIter_yields; [constructor|].
      apply Nat.le_lteq in H as [H|H].
      + destruct (skip_loop_err l k _ _ _ _ E F H) as [n P]. exists zv, n. intros m Hm. unfold st_skip. rewrite P by lia. reflexivity.
      + subst k. destruct (skip_loop_ok l s s1 E) as [n P]. destruct F as [v [n2 Hn]]. exists zv, (n + n2). intros m Hm.
        unfold st_skip. rewrite P by lia. cbn [obind fst snd]. rewrite Hn by lia. reflexivity.
    - exists (ofIter (0, s1)). split; [apply skip_emits; auto|]. eapply ofIter_stuck. apply skip0_fails; eauto.
  Qed.

  Lemma limit_emits k s l s' : emits nx s l s' -> length l <= k ->
    emits (st_limit nx) (k, s) l (k - length l, s').
  Proof.
    intros E. revert k. induction E as [s|s v s1 l s2 [n Hn] E IH]; intros k H.
    - simpl. rewrite Nat.sub_0_r. constructor.
    - simpl in H. destruct k as [|k]; [lia|]. econstructor; [|apply IH; lia].
      exists n. intros m Hm. unfold st_limit. rewrite Hn by auto. reflexivity.
  Qed.

  (** after [k] values: EOI for ever, and the source is not pulled again *)
  Lemma limit_stops k s l s' : emits nx s l s' -> length l = k ->
    emits (next (st_limit nx)) (ofIter (k, s)) l (ofIter (0, s')) /\
    returns (next (st_limit nx)) (ofIter (0, s')) (zv, Some EOI) (dead (0, s') EOI) /\
    stuck (next (st_limit nx)) (dead (0, s') EOI) EOI.
  Proof.
    intros E H. split; [|split].
    - apply ofIter_emits. replace 0 with (k - length l) by lia. apply limit_emits; auto; lia.
    - apply next_error. exists zv, 0. reflexivity.
    - apply dead_stuck.
  Qed.

  Lemma limit_short k s l e : yields nx s l e -> length l < k -> yields (next (st_limit nx)) (ofIter (k, s)) l e.
  Proof.
    intros Y H. apply yields_fails in Y as (s1 & s2 & E & [v [n Hn]]). eapply ofIter_yields with (s'' := (k - length l, s2)); [apply limit_emits; eauto; lia|].
    destruct (k - length l) as [|r] eqn:K; [lia|]. exists zv, n. intros m Hm. unfold st_limit. rewrite Hn by auto. reflexivity.
  Qed.

  (** ** Eager transforms *)
  Lemma inl_emits slc it l it' : emits (next (slice_gen slc)) it l it' ->
    emits (eager_next (EagerSlice slc)) (inl it) l (inl it').
  Proof.
    induction 1 as [|s v s1 l s2 [n Hn] E IH]; [constructor|]. econstructor; [|exact IH].
    exists n. intros m Hm. unfold eager_next. rewrite Hn by auto. reflexivity.
  Qed.

  Lemma eager_slice_yields (slc : list T) : yields (eager_next (EagerSlice slc)) (eager_init (EagerSlice slc)) slc EOI.
  Proof.
    exists (inl (ofIter (length slc))). split.
    - apply inl_emits. apply ofIter_emits. apply slice_emits.
    - econstructor.
      + instantiate (1 := inl (dead (length slc) EOI)). destruct (next_error (slice_gen slc) _ _ _ (slice_fails slc)) as [n Hn].
        exists n. intros m Hm. unfold eager_next. rewrite Hn by auto. reflexivity.
      + apply stuck_fixed. exists 0. reflexivity.
  Qed.

  Lemma eager_error_yields (e : err) : yields (eager_next (T := T) (EagerError e)) (eager_init (EagerError e)) [] e.
  Proof.
    exists (eager_init (EagerError e)). split; [constructor|]. econstructor.
    - exists 0. intros m _. unfold eager_next, eager_init. cbn. reflexivity.
    - apply stuck_fixed. exists 0. reflexivity.
  Qed.

  Lemma to_slice_next s l s1 s2 : emits nx s l s1 -> fails nx s1 EOI s2 ->
    returns (next (st_to_slice nx)) (ofIter (false, s)) (l, None) (ofIter (true, s2)).
  Proof. intros. apply next_value. eapply to_slice_eoi; eauto. Qed.

  Lemma to_slice_next_err s l s1 e s2 : emits nx s l s1 -> fails nx s1 e s2 -> e <> EOI ->
    returns (next (st_to_slice nx)) (ofIter (false, s)) ([], Some e) (dead (true, s2) e).
  Proof. intros. apply next_error. eapply to_slice_err; eauto. Qed.

  Lemma reverse_ok s l : yields nx s l EOI -> constructs (st_reverse nx) s (EagerSlice (rev l)).
  Proof.
    intros Y. apply yields_fails in Y as (s1 & s2 & E & F). destruct (to_slice_next _ _ _ _ E F) as [n Hn].
    exists n. intros m Hm. eexists. unfold st_reverse. rewrite Hn by auto. cbn [obind]. rewrite slice_reverse_spec. reflexivity.
  Qed.

  Lemma reverse_err s l e : yields nx s l e -> e <> EOI -> constructs (st_reverse nx) s (EagerError e).
  Proof.
    intros Y Ne. apply yields_fails in Y as (s1 & s2 & E & F). destruct (to_slice_next_err _ _ _ _ _ E F Ne) as [n Hn].
    exists n. intros m Hm. eexists. unfold st_reverse. rewrite Hn by auto. reflexivity.
  Qed.

  Lemma sort_ok sort s l : yields nx s l EOI -> constructs (st_sort nx sort) s (EagerSlice (sort l)).
  Proof.
    intros Y. apply yields_fails in Y as (s1 & s2 & E & F). destruct (to_slice_next _ _ _ _ E F) as [n Hn].
    exists n. intros m Hm. eexists. unfold st_sort. rewrite Hn by auto. reflexivity.
  Qed.

  Lemma sort_err sort s l e : yields nx s l e -> e <> EOI -> constructs (st_sort nx sort) s (EagerError e).
  Proof.
    intros Y Ne. apply yields_fails in Y as (s1 & s2 & E & F). destruct (to_slice_next_err _ _ _ _ _ E F Ne) as [n Hn].
    exists n. intros m Hm. eexists. unfold st_sort. rewrite Hn by auto. reflexivity.
  Qed.
End Maps.
