(** Proofs about the generators of iter/gen.go. *)
From Verif Require Import Base IterSpec Iter IterProofs IterGen GoInt.
From Coq Require Import Permutation.
Open Scope nat_scope.

(** ** Slices *)
Section Slice.
  Context {T : Type} `{Zero T}.

  Lemma slice_step (pre : list T) v post :
    returns (slice_gen (pre ++ v :: post)) (length pre) (v, None) (length pre + 1).
  Proof.
    exists 0. intros m _. unfold slice_gen. rewrite app_length. simpl.
    destruct (Nat.ltb_spec (length pre) (length pre + S (length post))); [|lia].
    rewrite nth_error_app2, Nat.sub_diag by lia. reflexivity.
  Qed.

  Lemma slice_emits_from (pre post : list T) :
    emits (slice_gen (pre ++ post)) (length pre) post (length (pre ++ post)).
  Proof.
    revert pre. induction post as [|v post IH]; intros pre.
    - rewrite app_nil_r. constructor.
    - econstructor. apply slice_step.
      replace (length pre + 1) with (length (pre ++ [v])) by (rewrite app_length; simpl; lia).
      replace (pre ++ v :: post) with ((pre ++ [v]) ++ post) by (rewrite <- app_assoc; reflexivity).
      apply IH.
  Qed.

  Lemma slice_emits (slc : list T) : emits (slice_gen slc) 0 slc (length slc).
  Proof. apply (slice_emits_from [] slc). Qed.

  Lemma slice_fails (slc : list T) : fails (slice_gen slc) (length slc) EOI (length slc).
  Proof. exists zv, 0. intros m _. unfold slice_gen. rewrite Nat.ltb_irrefl. reflexivity. Qed.

  Lemma slice_yields (slc : list T) : yields (next (slice_gen slc)) (ofIter 0) slc EOI.
  Proof. eapply ofIter_yields; [apply slice_emits|apply slice_fails]. Qed.

  Lemma novalue_yields : yields (next (@novalue_gen T _)) (ofIter tt) [] EOI.
  Proof. eapply ofIter_yields; [constructor|]. exists zv, 0. reflexivity. Qed.

  Lemma single_yields (v : T) : yields (next (single_gen v)) (ofIter false) [v] EOI.
  Proof.
    eapply ofIter_yields with (s' := true).
    - econstructor; [|constructor]. exists 0. reflexivity.
    - exists zv, 0. reflexivity.
  Qed.
End Slice.

(** ** Maps *)
Section MapG.
  Context {K V : Type} `{Zero K} `{Zero V}.
  Variables (nilK : K -> bool) (nilV : V -> bool).

  Lemma map_emits (order : list (K * V)) :
    forallb (fun kv => negb (nilK (fst kv) || nilV (snd kv))) order = true ->
    emits (map_gen nilK nilV) (order, false) order ([], false).
  Proof.
    induction order as [|[k v] o IH]; simpl; intros A. constructor.
    apply andb_true_iff in A as [A1 A2]. econstructor; [|apply IH; auto].
    exists 0. intros m _. simpl. apply negb_true_iff in A1. rewrite A1. reflexivity.
  Qed.

  Lemma map_yields (order : list (K * V)) :
    forallb (fun kv => negb (nilK (fst kv) || nilV (snd kv))) order = true ->
    yields (next (map_gen nilK nilV)) (ofIter (order, false)) order EOI.
  Proof.
    intros A. eapply ofIter_yields; [apply map_emits; auto|]. exists zv, 0. reflexivity.
  Qed.

  Lemma map_yields_perm (entries order : list (K * V)) :
    Permutation entries order ->
    (forall k v, In (k, v) entries -> nilK k = false /\ nilV v = false) ->
    exists out, yields (next (map_gen nilK nilV)) (ofIter (order, false)) out EOI /\ Permutation entries out.
  Proof.
    intros P A. exists order. split; auto. apply map_yields. apply forallb_forall. intros [k v] I.
    apply Permutation_sym in P. eapply Permutation_in in I; eauto. destruct (A _ _ I) as [A1 A2]. simpl. rewrite A1, A2. reflexivity.
  Qed.

  (** an entry whose value (or key) is a nil interface makes Next panic *)
  Lemma map_nil_panics (pre : list (K * V)) k v post :
    forallb (fun kv => negb (nilK (fst kv) || nilV (snd kv))) pre = true ->
    nilK k || nilV v = true ->
    exists s', emits (next (map_gen nilK nilV)) (ofIter (pre ++ (k, v) :: post, false)) pre s'
               /\ panics (next (map_gen nilK nilV)) s'.
  Proof.
    intros A B. exists (ofIter ((k, v) :: post, false)). split.
    - apply ofIter_emits. revert A. clear - K. induction pre as [|[k0 v0] o IH]; simpl; intros A. constructor.
      apply andb_true_iff in A as [A1 A2]. econstructor; [|apply IH; auto].
      exists 0. intros m _. simpl. apply negb_true_iff in A1. rewrite A1. reflexivity.
    - exists 0. intros m _. unfold next, ofIter. simpl. rewrite B. reflexivity.
  Qed.
End MapG.

(** ** Infinite sequences *)
Section Infinite.
  Context {T : Type} `{Zero T}.
  Variable f : T -> T.

  Lemma iter_shift n x : Nat.iter n f (f x) = f (Nat.iter n f x).
  Proof. induction n; simpl; congruence. Qed.

  Lemma infinite_tail n acc :
    emits (infinite_gen (pure_cb f)) ([], acc, tt) (map (fun i => Nat.iter (S i) f acc) (seq 0 n))
          ([], Nat.iter n f acc, tt).
  Proof.
    revert acc. induction n as [|n IH]; intros acc. constructor.
    simpl. econstructor. { exists 0. intros; reflexivity. }
    rewrite <- iter_shift. rewrite <- seq_shift, map_map.
    erewrite map_ext; [apply IH|]. intros i. simpl. rewrite iter_shift. reflexivity.
  Qed.

  Lemma infinite_lits lits acc :
    emits (infinite_gen (pure_cb f)) (lits, acc, tt) lits ([], acc, tt).
  Proof. induction lits; econstructor; eauto. exists 0. intros; reflexivity. Qed.

  Lemma infinite_seeded lits seed n :
    emits (next (infinite_gen (pure_cb f))) (ofIter (infinite_init (lits ++ [seed]) tt))
          (lits ++ map (fun i => Nat.iter (S i) f seed) (seq 0 n))
          (ofIter ([], Nat.iter n f seed, tt)).
  Proof.
    apply ofIter_emits. unfold infinite_init. rewrite app_length. simpl.
    destruct (Nat.ltb_spec 0 (length lits + 1)); [|lia].
    replace (length lits + 1 - 1) with (length lits) by lia.
    rewrite firstn_app, firstn_all, Nat.sub_diag, app_nth2, Nat.sub_diag by lia. simpl. rewrite app_nil_r.
    eapply emits_app. apply infinite_lits. apply infinite_tail.
  Qed.

  Lemma infinite_unseeded n :
    emits (next (infinite_gen (pure_cb f))) (ofIter (infinite_init [] tt))
          (map (fun i => Nat.iter (S i) f zv) (seq 0 n))
          (ofIter ([], Nat.iter n f zv, tt)).
  Proof. apply ofIter_emits. apply infinite_tail. Qed.
End Infinite.

(** ** Fibonacci *)
Lemma fib_SS n : fib (S (S n)) = (fib (S n) + fib n)%Z.
Proof. reflexivity. Qed.

Lemma fib_tail n k :
  emits fib_gen ([], wrapS 64 (fib (S k)), wrapS 64 (fib k))
        (map (fun i => wrapS 64 (fib (i + k + 2))) (seq 0 n))
        ([], wrapS 64 (fib (S (k + n))), wrapS 64 (fib (k + n))).
Proof.
  revert k. induction n as [|n IH]; intros k.
  - simpl. rewrite Nat.add_0_r. constructor.
  - simpl map. econstructor.
    + exists 0. intros m _. unfold fib_gen, infinite_gen, fib_iterative.
      rewrite wrapS_add_l, wrapS_add_r by lia.
      replace (fib k + fib (S k))%Z with (fib (0 + k + 2)).
      reflexivity. replace (0 + k + 2) with (S (S k)) by lia. rewrite fib_SS. ring.
    + replace (0 + k + 2) with (S (S k)) by lia.
      replace (k + S n) with (S k + n) by lia.
      rewrite <- seq_shift, map_map.
      erewrite map_ext; [apply IH|]. intros i. cbv beta. f_equal. f_equal. lia.
Qed.

Lemma fib_all n :
  exists s', emits (next fib_gen) (ofIter fib_init) (map (fun i => wrapS 64 (fib (i + 1))) (seq 0 n)) s'.
Proof.
  destruct n as [|n]; [eexists; constructor|].
  eexists. apply ofIter_emits. simpl map. econstructor.
  - exists 0. intros; reflexivity.
  - rewrite <- seq_shift, map_map.
    erewrite map_ext; [apply (fib_tail n 0)|]. intros i. cbv beta. f_equal. f_equal. lia.
Qed.

(** fib n computed fast, to check exactness *)
Fixpoint fib2 (n : nat) : Z * Z := match n with 0 => (0, 1)%Z | S m => let '(a, b) := fib2 m in (b, (a + b)%Z) end.
Lemma fib2_fib n : fib2 n = (fib n, fib (S n)).
Proof.
  induction n as [|n IH]; [reflexivity|]. cbn [fib2]. rewrite IH. rewrite (fib_SS n). f_equal. ring.
Qed.

Lemma fib_fst n : fib n = fst (fib2 n).
Proof. rewrite fib2_fib. reflexivity. Qed.

Lemma fib2_small :
  forallb (fun j => let z := fst (fib2 (j + 1)) in ((minS 64 <=? z) && (z <=? maxS 64))%Z) (seq 0 92) = true.
Proof. vm_compute; reflexivity. Qed.

Lemma fib_exact i : i <= 91 -> wrapS 64 (fib (i + 1)) = fib (i + 1).
Proof.
  intros Hi. apply wrapS_id; [lia|].
  pose proof fib2_small as A. rewrite forallb_forall in A. specialize (A i ltac:(apply in_seq; lia)).
  rewrite fib_fst. cbv zeta in A. apply andb_true_iff in A as [A1 A2].
  apply Z.leb_le in A1. apply Z.leb_le in A2. split; assumption.
Qed.

Lemma fib_wraps_at_92 : exists i, i = 92 /\ wrapS 64 (fib (i + 1)) <> fib (i + 1).
Proof. exists 92. split; [reflexivity|]. rewrite fib_fst. vm_compute. discriminate. Qed.

(** ** Functions with an internal loop *)
Section Loop.
  Context {S T : Type}.
  Variable L : nat -> stepfn S T.   (* loop bound, callee fuel, state *)

  Definition lruns (s : S) (r : ret T) (s' : S) : Prop :=
    exists n k, forall m loop, n <= m -> k <= loop -> L loop m s = Done (r, s').

  Lemma lruns_returns s r s' : lruns s r s' -> returns (fun fuel st => L fuel fuel st) s r s'.
  Proof. intros (n & k & R). exists (n + k). intros m Hm. apply R; lia. Qed.

  (** one iteration of the loop moves from [s] to [s1] *)
  Definition ljump (s s1 : S) : Prop :=
    exists n, forall m loop, n <= m -> L (Datatypes.S loop) m s = L loop m s1.

  Lemma ljump_runs s s1 r s' : ljump s s1 -> lruns s1 r s' -> lruns s r s'.
  Proof.
    intros [n J] (n1 & k & R). exists (n + n1), (Datatypes.S k). intros m loop Hm Hl.
    destruct loop as [|loop]; [lia|]. rewrite J by lia. apply R; lia.
  Qed.
End Loop.

(** ** Concat *)
Section Concat.
  Context {H T : Type} `{Zero T}.
  Variable its : list (option (stepfn H T)).
  Let L := fun loop fuel st => concat_loop its loop fuel st.

  Lemma concat_value i cur e h f v h' :
    nth_error its i = Some (Some f) -> returns f h (v, None) h' ->
    lruns L (i, cur, e, h) (v, None) (i, true, None, h').
  Proof.
    intros N [n Hn]. exists n, 1. intros m loop Hm Hl. destruct loop as [|loop]; [lia|].
    subst L. cbn [concat_loop]. rewrite N, Hn by lia.
    assert (i < length its) by (apply nth_error_Some; congruence).
    destruct (Nat.eqb_spec i (length its)); [lia|]. reflexivity.
  Qed.

  Lemma concat_err i cur e h f e' h' :
    nth_error its i = Some (Some f) -> fails f h e' h' -> e' <> EOI ->
    lruns L (i, cur, e, h) (zv, Some e') (length its, true, Some e', h').
  Proof.
    intros N [v [n Hn]] Ne. exists n, 1. intros m loop Hm Hl. destruct loop as [|loop]; [lia|].
    subst L. cbn [concat_loop]. rewrite N, Hn by lia.
    assert (i < length its) by (apply nth_error_Some; congruence).
    destruct (Nat.eqb_spec i (length its)); [lia|]. simpl. destruct e'; try reflexivity. congruence.
  Qed.

  Lemma concat_eoi i cur e h f h' :
    nth_error its i = Some (Some f) -> fails f h EOI h' ->
    ljump L (i, cur, e, h) (i + 1, false, Some EOI, h').
  Proof.
    intros N [v [n Hn]]. exists n. intros m loop Hm.
    subst L. cbn [concat_loop]. rewrite N, Hn by lia.
    assert (i < length its) by (apply nth_error_Some; congruence).
    destruct (Nat.eqb_spec i (length its)); [lia|]. reflexivity.
  Qed.

  Lemma concat_skip i cur e h :
    nth_error its i = Some None -> ljump L (i, cur, e, h) (i + 1, false, e, h).
  Proof.
    intros N. exists 0. intros m loop Hm.
    subst L. cbn [concat_loop]. rewrite N.
    assert (i < length its) by (apply nth_error_Some; congruence).
    destruct (Nat.eqb_spec i (length its)); [lia|]. reflexivity.
  Qed.

  Lemma concat_end cur e h : lruns L (length its, cur, e, h) (zv, e) (length its, cur, e, h).
  Proof.
    exists 0, 1. intros m loop _ Hl. destruct loop as [|loop]; [lia|].
    subst L. cbn [concat_loop]. rewrite Nat.eqb_refl. reflexivity.
  Qed.

  (** values [l], then error [e], ending in world [h] *)
  Inductive lyields : nat * bool * option err * H -> list T -> err -> H -> Prop :=
  | ly_nil st e st' h : lruns L st (zv, Some e) st' -> snd st' = h -> lyields st [] e h
  | ly_cons st v st1 l e h : lruns L st (v, None) st1 -> lyields st1 l e h -> lyields st (v :: l) e h.

  Lemma lyields_jump st st1 l e h : ljump L st st1 -> lyields st1 l e h -> lyields st l e h.
  Proof.
    intros J Y. inversion Y; subst.
    - econstructor; [|reflexivity]. eapply ljump_runs; eauto.
    - econstructor; [|eassumption]. eapply ljump_runs; eauto.
  Qed.

  Lemma lyields_emits st i f h l1 h1 l2 e hf :
    nth_error its i = Some (Some f) -> (exists cur e0, st = (i, cur, e0, h)) ->
    emits f h l1 h1 ->
    (forall cur e0, lyields (i, cur, e0, h1) l2 e hf) -> lyields st (l1 ++ l2) e hf.
  Proof.
    intros N St E K. revert st St. induction E as [s|s v s1 l s2 R E IH]; intros st (cur & e0 & ->).
    - apply K.
    - simpl. econstructor. { eapply concat_value; eauto. } apply IH; eauto.
  Qed.

  Lemma concat_lyields pre rest h l e h' :
    its = pre ++ rest -> seq_run rest h l e h' ->
    forall cur e0, (rest = [] -> e0 = Some EOI) -> (Forall (eq None) rest -> e0 = Some EOI) ->
    lyields (length pre, cur, e0, h) l e h'.
  Proof.
    intros Eq R. revert pre Eq. induction R as [h|rest h l e h' R IH|f rest h l1 h1 h2 l2 e h3 E F R IH|f rest h l1 h1 e h2 E F Ne];
      intros pre Eq cur e0 He0 Hn.
    - rewrite He0 by auto. rewrite app_nil_r in Eq. econstructor.
      { rewrite <- Eq. apply concat_end. } reflexivity.
    - eapply lyields_jump. { apply concat_skip. rewrite Eq, nth_error_app2, Nat.sub_diag by lia. reflexivity. }
      replace (length pre + 1) with (length (pre ++ [None])) by (rewrite app_length; reflexivity).
      apply IH.
      + rewrite Eq, <- app_assoc. reflexivity.
      + intros ->. apply Hn. constructor; auto.
      + intros X. apply Hn. constructor; auto.
    - assert (N : nth_error its (length pre) = Some (Some f))
        by (rewrite Eq, nth_error_app2, Nat.sub_diag by lia; reflexivity).
      eapply lyields_emits; eauto. intros cur' e1. eapply lyields_jump. { eapply concat_eoi; eauto. }
      replace (length pre + 1) with (length (pre ++ [Some f])) by (rewrite app_length; reflexivity).
      apply IH; auto. rewrite Eq, <- app_assoc. reflexivity.
    - assert (N : nth_error its (length pre) = Some (Some f))
        by (rewrite Eq, nth_error_app2, Nat.sub_diag by lia; reflexivity).
      rewrite <- (app_nil_r l1). eapply lyields_emits; eauto. intros cur' e1. econstructor.
      { eapply concat_err; eauto. } reflexivity.
  Qed.

  Lemma lyields_spec st l e h :
    lyields st l e h ->
    exists st1 st2, emits (concat_gen its) st l st1 /\ fails (concat_gen its) st1 e st2 /\ snd st2 = h.
  Proof.
    induction 1 as [st e st' h R Hh|st v st1 l e h R Y IH].
    - exists st, st'. split; [constructor|]. split; auto. exists zv. apply lruns_returns in R. exact R.
    - destruct IH as (a & b & E & F & Hh). exists a, b. split; auto. econstructor; eauto.
      apply lruns_returns in R. exact R.
  Qed.

  Lemma concat_correct h l e h' :
    seq_run its h l e h' ->
    exists st1 st2,
      emits (next (concat_gen its)) (ofIter (concat_init h)) l (ofIter st1) /\
      returns (next (concat_gen its)) (ofIter st1) (zv, Some e) (dead st2 e) /\ snd st2 = h' /\
      yields (next (concat_gen its)) (ofIter (concat_init h)) l e.
  Proof.
    intros R.
    assert (Y : lyields (concat_init h) l e h').
    { apply (concat_lyields [] its); auto. }
    apply lyields_spec in Y as (st1 & st2 & E & F & Hh). exists st1, st2.
    split; [apply ofIter_emits; auto|]. split; [apply next_error; auto|]. split; auto.
    eapply ofIter_yields; eauto.
  Qed.
End Concat.

(** Independent iterators, each with its own state: the world is the list of their states, the i-th acts on the
    i-th component. *)
Section Independent.
  Context {S T : Type} `{Zero T}.

  Lemma on_nth_returns (pre : list S) s post (f : stepfn S T) r s' :
    returns f s r s' -> returns (on_nth (length pre) f) (pre ++ s :: post) r (pre ++ s' :: post).
  Proof.
    intros [n Hn]. exists n. intros m Hm. unfold on_nth.
    rewrite nth_error_app2, Nat.sub_diag by lia. cbn [nth_error]. rewrite Hn by auto. cbn [obind fst snd].
    rewrite firstn_app, firstn_all, Nat.sub_diag. cbn [firstn]. rewrite app_nil_r.
    replace (skipn (Datatypes.S (length pre)) (pre ++ s :: post)) with post; [reflexivity|].
    change (pre ++ s :: post) with (pre ++ [s] ++ post). rewrite app_assoc.
    replace (Datatypes.S (length pre)) with (length (pre ++ [s])) by (rewrite app_length; simpl; lia).
    rewrite skipn_app, skipn_all, Nat.sub_diag. reflexivity.
  Qed.

  Lemma on_nth_emits (pre : list S) s post (f : stepfn S T) l s' :
    emits f s l s' -> emits (on_nth (length pre) f) (pre ++ s :: post) l (pre ++ s' :: post).
  Proof. induction 1; econstructor; eauto. apply on_nth_returns; auto. Qed.

  Lemma indep_seq (fs : list (stepfn S T)) ss ls pre :
    Forall2 (fun p l => yields (fst p) (snd p) l EOI) (combine fs ss) ls -> length fs = length ss ->
    exists h', seq_run (map (fun p => Some (on_nth (fst p) (snd p))) (combine (seq (length pre) (length fs)) fs))
                       (pre ++ ss) (concat ls) EOI h'.
  Proof.
    revert ss ls pre. induction fs as [|f fs IH]; intros [|s ss] ls pre F Len; try discriminate.
    - inversion F; subst. eexists. constructor.
    - simpl in F. inversion F as [|? l ? ls' Y F' ]; subst. simpl in Y. destruct Y as (s1 & E & K).
      apply stuck_fails in K as (s2 & [v Fl] & _).
      destruct (IH ss ls' (pre ++ [s2]) F' ltac:(simpl in Len; lia)) as [h' R].
      exists h'. simpl. econstructor.
      + apply on_nth_emits; eauto.
      + exists v. apply on_nth_returns; eauto.
      + rewrite app_length in R. simpl in R. replace (length pre + 1) with (Datatypes.S (length pre)) in R by lia.
        rewrite <- app_assoc in R. exact R.
  Qed.

  Lemma concat_independent (fs : list (stepfn S T)) ss ls :
    length fs = length ss ->
    Forall2 (fun p l => yields (fst p) (snd p) l EOI) (combine fs ss) ls ->
    yields (next (concat_gen (indep fs))) (ofIter (concat_init ss)) (concat ls) EOI.
  Proof.
    intros Len F. destruct (indep_seq fs ss ls [] F Len) as [h' R].
    destruct (concat_correct _ _ _ _ _ R) as (? & ? & _ & _ & _ & Y). exact Y.
  Qed.
End Independent.
