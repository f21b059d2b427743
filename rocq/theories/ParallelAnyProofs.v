(** Parallel with transforms of any kind: proofs. *)
From Verif Require Import Base Slice Parallel ParallelSpec ParallelFloatProofs ParallelProofs.
From Coq Require Import ZifyNat.
Open Scope nat_scope.

(** ** All schedules agree *)
Section Agree.
  Context {T U Q : Type} `{ZU : Zero U}.
  Variables (act : Q -> action T U Q) (alias : option (U -> T)) (ranges : list (nat * nat)) (n : nat).
  Hypothesis CH : chain 0 ranges n.
  Variables (q0 : Q) (input : list T) (out0 : list U).
  Hypothesis (Ln : length input = n) (Lo : length out0 = n).

  Definition halted (w : wstate Q) : Prop := w = WCrash \/ exists e, w = WDone e.
  Lemma halted_stays len w m k : halted w -> Nat.iter k (lstep act alias len) (w, m) = (w, m).
  Proof. intros [-> | [e ->]]; [apply crash_stays|apply done_stays]. Qed.
  Lemma halted_same len x a b wa ma wb mb : Nat.iter a (lstep act alias len) x = (wa, ma) -> Nat.iter b (lstep act alias len) x = (wb, mb) ->
    halted wa -> halted wb -> (wa, ma) = (wb, mb).
  Proof.
    intros A B Ha Hb. destruct (Nat.le_ge_cases a b) as [L|L].
    - replace b with ((b - a) + a) in B by lia. rewrite iter_add in B. rewrite <- B. symmetry.
      etransitivity; [apply f_equal; exact A|]. apply halted_stays. exact Ha.
    - replace a with ((a - b) + b) in A by lia. rewrite iter_add in A. rewrite <- A.
      etransitivity; [apply f_equal; exact B|]. apply halted_stays. exact Hb.
  Qed.

  Definition start (r : nat * nat) : wstate Q * (list T * list U) := (WRun q0 0 0, (seg input r, seg out0 r)).
  Definition gat (sched : list nat) := grun act alias ranges sched (ginit q0 ranges (input, out0)).
  Lemma gat_local sched t r : nth_error ranges t = Some r ->
    exists w, nth_error (fst (gat sched)) t = Some w /\
      Nat.iter (count_occ Nat.eq_dec sched t) (lstep act alias (size r)) (start r) = (w, mseg (snd (gat sched)) r).
  Proof.
    intros R. destruct (grun_local act alias ranges n CH sched _ (init_wf ranges n q0 input out0 Ln Lo)) as [_ L].
    specialize (L t r _ R (init_local ranges q0 input out0 t r R)). fold (gat sched) in L.
    unfold local in L. rewrite R in L. destruct (nth_error (fst (gat sched)) t) as [w|] eqn:W; [|discriminate].
    exists w. split; [reflexivity|]. injection L as L1. exact (eq_sym L1).
  Qed.
  Lemma gat_wf sched : length (fst (gat sched)) = length ranges /\ length (fst (snd (gat sched))) = n /\ length (snd (snd (gat sched))) = n.
  Proof. exact (proj1 (grun_local act alias ranges n CH sched _ (init_wf ranges n q0 input out0 Ln Lo))). Qed.

  Lemma done_in sched t w : all_done (gat sched) -> nth_error (fst (gat sched)) t = Some w -> exists e, w = WDone e.
  Proof. intros D E. unfold all_done in D. rewrite Forall_forall in D. apply D. eapply nth_error_In; eauto. Qed.

  (** two schedules that complete leave the same *)
  Lemma same_end s1 s2 : all_done (gat s1) -> all_done (gat s2) -> gat s1 = gat s2.
  Proof.
    intros D1 D2. destruct (gat_wf s1) as (A1 & B1 & C1), (gat_wf s2) as (A2 & B2 & C2).
    assert (K : forall t r, nth_error ranges t = Some r -> nth_error (fst (gat s1)) t = nth_error (fst (gat s2)) t /\ mseg (snd (gat s1)) r = mseg (snd (gat s2)) r).
    { intros t r R. destruct (gat_local s1 t r R) as (w1 & W1 & I1), (gat_local s2 t r R) as (w2 & W2 & I2).
      pose proof (halted_same _ _ _ _ _ _ _ _ I1 I2 (or_intror (done_in _ _ _ D1 W1)) (or_intror (done_in _ _ _ D2 W2))) as X.
      injection X as X1 X2. rewrite W1, W2, X1. split; [reflexivity|]. unfold mseg in *. congruence. }
    assert (F : fst (gat s1) = fst (gat s2)).
    { apply list_ext. intros t. destruct (nth_error ranges t) as [r|] eqn:R; [apply (K t r R)|]. apply nth_error_None in R.
      rewrite (proj2 (nth_error_None _ _)), (proj2 (nth_error_None _ _)) by lia. reflexivity. }
    assert (M : forall t r, nth_error ranges t = Some r -> seg (fst (snd (gat s1))) r = seg (fst (snd (gat s2))) r /\ seg (snd (snd (gat s1))) r = seg (snd (snd (gat s2))) r).
    { intros t r R. destruct (K t r R) as [_ X]. unfold mseg in X. injection X as X1 X2. auto. }
    assert (S1 : fst (snd (gat s1)) = fst (snd (gat s2))).
    { rewrite <- (seg_all (fst (snd (gat s1)))), <- (seg_all (fst (snd (gat s2)))), B1, B2, <- !(chain_concat _ 0 ranges n CH) by lia.
      f_equal. apply map_ext_in. intros r I. apply In_nth_error in I as [t R]. apply (M t r R). }
    assert (S2 : snd (snd (gat s1)) = snd (snd (gat s2))).
    { rewrite <- (seg_all (snd (snd (gat s1)))), <- (seg_all (snd (snd (gat s2)))), C1, C2, <- !(chain_concat _ 0 ranges n CH) by lia.
      f_equal. apply map_ext_in. intros r I. apply In_nth_error in I as [t R]. apply (M t r R). }
    destruct (gat s1) as [ws1 [i1 o1]], (gat s2) as [ws2 [i2 o2]]. cbn [fst snd] in *. congruence.
  Qed.

  (** if one schedule completes, all that give the workers enough turns do, and none has a worker panic *)
  Lemma one_all s : all_done (gat s) -> exists k, forall s', (forall t, t < length ranges -> k <= count_occ Nat.eq_dec s' t) -> all_done (gat s').
  Proof.
    intros D. exists (length s). intros s' H. apply Forall_forall. intros w I. apply In_nth_error in I as [t I].
    assert (Ht : t < length ranges) by (rewrite <- (proj1 (gat_wf s')); apply nth_error_Some; congruence).
    destruct (nth_error ranges t) as [r|] eqn:R; [|apply nth_error_None in R; lia].
    destruct (gat_local s t r R) as (w1 & W1 & I1), (gat_local s' t r R) as (w2 & W2 & I2).
    destruct (done_in _ _ _ D W1) as [e ->]. exists e. assert (w2 = w) by congruence. subst w2.
    assert (C : count_occ Nat.eq_dec s t <= count_occ Nat.eq_dec s' t).
    { pose proof (count_occ_bound Nat.eq_dec t s). specialize (H t Ht). lia. }
    replace (count_occ Nat.eq_dec s' t) with ((count_occ Nat.eq_dec s' t - count_occ Nat.eq_dec s t) + count_occ Nat.eq_dec s t) in I2 by lia.
    rewrite iter_add in I2. assert (X : (w, mseg (snd (gat s')) r) = (WDone e, mseg (snd (gat s)) r)).
    { rewrite <- I2. etransitivity; [apply f_equal; exact I1|]. apply done_stays. }
    congruence.
  Qed.
  Lemma crash_not_done s s' : In WCrash (fst (gat s)) -> ~ all_done (gat s').
  Proof.
    intros I D. apply In_nth_error in I as [t I].
    assert (Ht : t < length ranges) by (rewrite <- (proj1 (gat_wf s)); apply nth_error_Some; congruence).
    destruct (nth_error ranges t) as [r|] eqn:R; [|apply nth_error_None in R; lia].
    destruct (gat_local s t r R) as (w1 & W1 & I1), (gat_local s' t r R) as (w2 & W2 & I2).
    assert (w1 = WCrash) by congruence. subst w1. destruct (done_in _ _ _ D W2) as [e ->].
    pose proof (halted_same _ _ _ _ _ _ _ _ I1 I2 (or_introl eq_refl) (or_intror (ex_intro _ e eq_refl))) as X. discriminate.
  Qed.
  (** a worker that panics alone panics under every schedule that gives it enough turns *)
  Lemma crash_all t r k m : nth_error ranges t = Some r -> Nat.iter k (lstep act alias (size r)) (start r) = (WCrash, m) ->
    forall s, k <= count_occ Nat.eq_dec s t -> In WCrash (fst (gat s)).
  Proof.
    intros R E s C. destruct (gat_local s t r R) as (w & W & I1). apply nth_error_In with (n := t). rewrite W. f_equal.
    replace (count_occ Nat.eq_dec s t) with ((count_occ Nat.eq_dec s t - k) + k) in I1 by lia. rewrite iter_add in I1.
    assert (X : (w, mseg (snd (gat s)) r) = (WCrash, m)).
    { rewrite <- I1. etransitivity; [apply f_equal; exact E|]. apply crash_stays. }
    congruence.
  Qed.
  Lemma crash_one s : In WCrash (fst (gat s)) -> exists t, t < length ranges /\ forall s', count_occ Nat.eq_dec s t <= count_occ Nat.eq_dec s' t -> In WCrash (fst (gat s')).
  Proof.
    intros I. apply In_nth_error in I as [t I].
    assert (Ht : t < length ranges) by (rewrite <- (proj1 (gat_wf s)); apply nth_error_Some; congruence).
    exists t. split; [exact Ht|]. destruct (nth_error ranges t) as [r|] eqn:R; [|apply nth_error_None in R; lia].
    destruct (gat_local s t r R) as (w1 & W1 & I1). assert (w1 = WCrash) by congruence. subst w1.
    intros s' C. exact (crash_all t r _ _ R I1 s' C).
  Qed.
  Lemma alone_never_done t r k m : nth_error ranges t = Some r -> Nat.iter k (lstep act alias (size r)) (start r) = (WCrash, m) ->
    forall s, ~ all_done (gat s).
  Proof.
    intros R E s. assert (Ht : t < length ranges) by (apply nth_error_Some; congruence).
    apply (crash_not_done (repeat t k)). apply (crash_all t r k m R E).
    clear. induction k as [|k IH]; cbn [repeat count_occ]; [lia|]. destruct (Nat.eq_dec t t); [lia|congruence].
  Qed.
End Agree.

(** ** A worker alone, whatever its transform *)
Section Alone.
  Context {T U Q : Type} `{ZU : Zero U}.
  Variable act : Q -> action T U Q.

  (** with an output of its own *)
  Lemma makes_alone len q l w e : makes act q l w e -> forall rd inp pre rest,
    length inp = len -> length (pre ++ rest) = len -> skipn rd inp = l -> rd <= len ->
    exists k inp', (length w <= length rest ->
        Nat.iter k (lstep act None len) (WRun q rd (length pre), (inp, pre ++ rest)) =
        (WDone (err_of e), (inp', match e with EOI => pre ++ w ++ skipn (length w) rest | _ => repeat zv len end))) /\
      (length rest < length w -> exists m,
        Nat.iter k (lstep act None len) (WRun q rd (length pre), (inp, pre ++ rest)) = (WCrash, m)).
  Proof.
    induction 1 as [q k x l w e A R IH|q k w e A R IH|q u q' l w e A R IH|q l e A]; intros rd inp pre rest L1 L2 Sk Le.
    - assert (Hr : rd < len). { rewrite <- L1. apply nth_error_Some. rewrite <- (Nat.add_0_r rd), <- nth_skipn, Sk. discriminate. }
      assert (Hx : nth_error inp (0 + rd) = Some x).
      { rewrite Nat.add_0_l, <- (Nat.add_0_r rd). rewrite <- nth_skipn. simpl. rewrite Sk. reflexivity. }
      destruct (IH (rd + 1) inp pre rest L1 L2) as (j & inp' & E).
      { replace (rd + 1) with (1 + rd) by lia. rewrite <- skipn_skipn, Sk. reflexivity. }
      { lia. }
      exists (S j), inp'. rewrite iter_S. unfold lstep at 2 4. cbn [wstep fst snd]. rewrite A, Nat.sub_0_r, Hx.
      destruct (Nat.ltb_spec rd len); [|lia]. exact E.
    - assert (Hr : ~ rd < len).
      { rewrite <- L1. intros H. assert (length (skipn rd inp) <> 0) by (rewrite skipn_length; lia). rewrite Sk in H0. simpl in H0. lia. }
      destruct (IH rd inp pre rest L1 L2 Sk Le) as (j & inp' & E).
      exists (S j), inp'. rewrite iter_S. unfold lstep at 2 4. cbn [wstep fst snd]. rewrite A, Nat.sub_0_r.
      destruct (Nat.ltb_spec rd len); [lia|]. exact E.
    - destruct rest as [|x rest].
      { exists 1, inp. split; [cbn; lia|]. intros _. rewrite iter_S. cbn [Nat.iter nat_rect]. unfold lstep. cbn [wstep fst snd]. rewrite A, Nat.sub_0_r. rewrite app_nil_r in L2.
        destruct (Nat.ltb_spec (length pre) len); [lia|]. eexists. reflexivity. }
      assert (L2' : length ((pre ++ [u]) ++ rest) = len). { rewrite !app_length in *. simpl in *. lia. }
      destruct (IH rd inp (pre ++ [u]) rest L1 L2' Sk Le) as (j & inp' & E).
      exists (S j), inp'. rewrite iter_S. unfold lstep at 2 4. cbn [wstep fst snd]. rewrite A, Nat.sub_0_r.
      destruct (Nat.ltb_spec (length pre) len); [|rewrite app_length in L2; simpl in L2; lia]. cbn [Nat.add]. unfold mwrite. cbn [fst snd]. rewrite set_nth_app.
      rewrite app_length in E. cbn [length] in E. rewrite <- !app_assoc in E. cbn [app] in E. cbn [length app skipn].
      destruct E as [E1 E2]. split; intros H'; [apply E1; lia|apply E2; lia].
    - destruct e.
      1: { exists 1, inp. split; [|cbn; lia]. intros _. cbn. unfold lstep. cbn [wstep fst snd]. rewrite A. reflexivity. }
      all: match goal with |- exists k i, (_ -> Nat.iter k _ _ = (WDone (err_of ?e), _)) /\ _ =>
             destruct (zero_run act None e len (pre ++ rest) inp [] L1 L2) as [inp' E] end;
           exists (S (length (pre ++ rest) + 1)), inp'; (split; [|cbn; lia]); intros _; rewrite iter_S; unfold lstep at 2; cbn [wstep fst snd]; rewrite A; cbv iota beta;
           cbn [app length] in E; (etransitivity; [exact E|]); rewrite L2; reflexivity.
  Qed.
  Lemma makes_fits len q l w e old : makes act q l w e -> length l = len -> length old = len -> length w <= len ->
    exists k inp', Nat.iter k (lstep act None len) (WRun q 0 0, (l, old)) = (WDone (err_of e), (inp', left_by old w e)).
  Proof.
    intros M L1 L2 H. destruct (makes_alone len q l w e M 0 l [] old L1 L2 eq_refl ltac:(lia)) as (k & inp' & E & _).
    exists k, inp'. cbn [length app] in E. (etransitivity; [apply E; lia|]). unfold left_by. rewrite L2. destruct e; reflexivity.
  Qed.
  Lemma makes_crash len q l w e old : makes act q l w e -> length l = len -> length old = len -> len < length w ->
    exists k m, Nat.iter k (lstep act None len) (WRun q 0 0, (l, old)) = (WCrash, m).
  Proof.
    intros M L1 L2 H. destruct (makes_alone len q l w e M 0 l [] old L1 L2 eq_refl ltac:(lia)) as (k & inp' & _ & E).
    exists k. apply E. lia.
  Qed.

  (** in place or not: one that returns more values than its range has *)
  Variable alias : option (U -> T).
  Lemma over_alone len d q l n : overruns act d q l n -> forall inp pre rest,
    length inp = len -> length (pre ++ rest) = len -> skipn (length pre + d) inp = l -> length pre + d <= len -> n = length rest ->
    exists k m, Nat.iter k (lstep act alias len) (WRun q (length pre + d) (length pre), (inp, pre ++ rest)) = (WCrash, m).
  Proof.
    induction 1 as [d q k x l n A R IH|d q k n A R IH|d q u q' l n A R IH|d q u q' l A]; intros inp pre rest L1 L2 Sk Le Hn.
    - assert (Hr : length pre + d < len). { rewrite <- L1. apply nth_error_Some. rewrite <- (Nat.add_0_r (_ + _)), <- nth_skipn, Sk. discriminate. }
      assert (Hx : nth_error inp (0 + (length pre + d)) = Some x).
      { rewrite <- (Nat.add_0_r (length pre + d)). rewrite Nat.add_assoc. rewrite <- nth_skipn. simpl. rewrite Sk. reflexivity. }
      destruct (IH inp pre rest L1 L2) as (j & m & E).
      { replace (length pre + S d) with (1 + (length pre + d)) by lia. rewrite <- skipn_skipn, Sk. reflexivity. }
      { lia. } { exact Hn. }
      exists (S j), m. rewrite iter_S. unfold lstep at 2. cbn [wstep fst snd]. rewrite A, Nat.sub_0_r, Hx.
      destruct (Nat.ltb_spec (length pre + d) len); [|lia].
      replace (length pre + d + 1) with (length pre + S d) by lia. exact E.
    - assert (Hr : ~ length pre + d < len).
      { rewrite <- L1. intros H. assert (length (skipn (length pre + d) inp) <> 0) by (rewrite skipn_length; lia). rewrite Sk in H0. simpl in H0. lia. }
      destruct (IH inp pre rest L1 L2 Sk Le Hn) as (j & m & E).
      exists (S j), m. rewrite iter_S. unfold lstep at 2. cbn [wstep fst snd]. rewrite A, Nat.sub_0_r.
      destruct (Nat.ltb_spec (length pre + d) len); [lia|]. exact E.
    - destruct rest as [|x rest]; [discriminate|].
      destruct (write_at alias inp pre rest x u len L1 L2) as (inp1 & W & Li & Sk1).
      assert (L2' : length ((pre ++ [u]) ++ rest) = len). { rewrite !app_length in *. simpl in *. lia. }
      destruct (IH inp1 (pre ++ [u]) rest Li L2') as (j & m & E).
      { rewrite app_length. simpl. rewrite <- Sk. transitivity (skipn (length pre + 1 + d) inp); [|f_equal; lia].
        apply skipn_more with (a := length pre + 1); [lia|exact Sk1]. }
      { rewrite app_length. simpl. lia. } { cbn in Hn. lia. }
      exists (S j), m. rewrite iter_S. unfold lstep at 2. cbn [wstep fst snd]. rewrite A, Nat.sub_0_r.
      destruct (Nat.ltb_spec (length pre) len); [|rewrite app_length in L2; simpl in L2; lia]. cbn [Nat.add]. rewrite W.
      rewrite app_length in E. cbn [length] in E. rewrite <- !app_assoc in E. cbn [app] in E.
      replace (length pre + S d) with (length pre + 1 + d) by lia. exact E.
    - destruct rest; [|discriminate]. exists 1. eexists. rewrite iter_S. cbn [Nat.iter nat_rect]. unfold lstep. cbn [wstep fst snd]. rewrite A, Nat.sub_0_r.
      rewrite app_nil_r in L2. destruct (Nat.ltb_spec (length pre) len); [lia|]. reflexivity.
  Qed.
  Lemma over_crash len q l old : overruns act 0 q l len -> length l = len -> length old = len ->
    exists k m, Nat.iter k (lstep act alias len) (WRun q 0 0, (l, old)) = (WCrash, m).
  Proof. intros O L1 L2. exact (over_alone len 0 q l len O l [] old L1 L2 eq_refl (Nat.le_0_l len) (eq_sym L2)). Qed.
  (** one of its callbacks panics *)
  Lemma dies_alone len d q l : dies act d q l -> forall inp pre rest,
    length inp = len -> length (pre ++ rest) = len -> skipn (length pre + d) inp = l -> length pre + d <= len ->
    exists k m, Nat.iter k (lstep act alias len) (WRun q (length pre + d) (length pre), (inp, pre ++ rest)) = (WCrash, m).
  Proof.
    induction 1 as [d q k x l A R IH|d q k A R IH|d q u q' l A R IH|d q l A]; intros inp pre rest L1 L2 Sk Le.
    - assert (Hr : length pre + d < len). { rewrite <- L1. apply nth_error_Some. rewrite <- (Nat.add_0_r (_ + _)), <- nth_skipn, Sk. discriminate. }
      assert (Hx : nth_error inp (0 + (length pre + d)) = Some x).
      { rewrite <- (Nat.add_0_r (length pre + d)). rewrite Nat.add_assoc. rewrite <- nth_skipn. simpl. rewrite Sk. reflexivity. }
      destruct (IH inp pre rest L1 L2) as (j & m & E).
      { replace (length pre + S d) with (1 + (length pre + d)) by lia. rewrite <- skipn_skipn, Sk. reflexivity. }
      { lia. }
      exists (S j), m. rewrite iter_S. unfold lstep at 2. cbn [wstep fst snd]. rewrite A, Nat.sub_0_r, Hx.
      destruct (Nat.ltb_spec (length pre + d) len); [|lia].
      replace (length pre + d + 1) with (length pre + S d) by lia. exact E.
    - assert (Hr : ~ length pre + d < len).
      { rewrite <- L1. intros H. assert (length (skipn (length pre + d) inp) <> 0) by (rewrite skipn_length; lia). rewrite Sk in H0. simpl in H0. lia. }
      destruct (IH inp pre rest L1 L2 Sk Le) as (j & m & E).
      exists (S j), m. rewrite iter_S. unfold lstep at 2. cbn [wstep fst snd]. rewrite A, Nat.sub_0_r.
      destruct (Nat.ltb_spec (length pre + d) len); [lia|]. exact E.
    - destruct rest as [|x rest].
      { exists 1. eexists. rewrite iter_S. cbn [Nat.iter nat_rect]. unfold lstep. cbn [wstep fst snd]. rewrite A, Nat.sub_0_r.
        rewrite app_nil_r in L2. destruct (Nat.ltb_spec (length pre) len); [lia|]. reflexivity. }
      destruct (write_at alias inp pre rest x u len L1 L2) as (inp1 & W & Li & Sk1).
      assert (L2' : length ((pre ++ [u]) ++ rest) = len). { rewrite !app_length in *. simpl in *. lia. }
      destruct (IH inp1 (pre ++ [u]) rest Li L2') as (j & m & E).
      { rewrite app_length. simpl. rewrite <- Sk. transitivity (skipn (length pre + 1 + d) inp); [|f_equal; lia].
        apply skipn_more with (a := length pre + 1); [lia|exact Sk1]. }
      { rewrite app_length. simpl. lia. }
      exists (S j), m. rewrite iter_S. unfold lstep at 2. cbn [wstep fst snd]. rewrite A, Nat.sub_0_r.
      destruct (Nat.ltb_spec (length pre) len); [|rewrite app_length in L2; simpl in L2; lia]. cbn [Nat.add]. rewrite W.
      rewrite app_length in E. cbn [length] in E. rewrite <- !app_assoc in E. cbn [app] in E.
      replace (length pre + S d) with (length pre + 1 + d) by lia. exact E.
    - exists 1. eexists. rewrite iter_S. cbn [Nat.iter nat_rect]. unfold lstep. cbn [wstep fst snd]. rewrite A. reflexivity.
  Qed.
  Lemma dies_crash len q l old : dies act 0 q l -> length l = len -> length old = len ->
    exists k m, Nat.iter k (lstep act alias len) (WRun q 0 0, (l, old)) = (WCrash, m).
  Proof. intros O L1 L2. exact (dies_alone len 0 q l O l [] old L1 L2 eq_refl (Nat.le_0_l len)). Qed.
End Alone.
