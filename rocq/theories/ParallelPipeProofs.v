From Verif Require Import Base Iter IterSpec IterProofs IterGen IterGenProofs Stream StreamSpec StreamProofs Pipe PipeSpec PipeProofs Slice SliceMem MemIter MemIterSpec MemIterProofs MemIterProofs2 Parallel ParallelSpec ParallelProofs ParallelPipe.
Open Scope nat_scope.
Open Scope go_scope.

(** ** More fuel, and a source that answers more, change no answer *)
Definition upto {S T} (nx1 nx2 : stepfn S T) : Prop := forall f1 f2 s x, f1 <= f2 -> nx1 f1 s = Done x -> nx2 f2 s = Done x.

Section Mono.
  Context {S : Type}.
  Lemma pull_loop_mono {T A R} (nx1 nx2 : stepfn S T) (body : A -> T -> outcome (A + R)) onerr : upto nx1 nx2 ->
    forall loop1 loop2 f1 f2 a s x, loop1 <= loop2 -> f1 <= f2 -> pull_loop nx1 body onerr loop1 f1 a s = Done x -> pull_loop nx2 body onerr loop2 f2 a s = Done x.
  Proof.
    intros L. induction loop1 as [|n1 IH]; intros [|n2] f1 f2 a s x Hl Hf E; cbn [pull_loop] in *; try discriminate; try lia.
    destruct (nx1 f1 s) as [[[v [e|]] s']| |] eqn:F; cbn [obind] in E; try discriminate; rewrite (L _ _ _ _ Hf F); cbn [obind]; [exact E|].
    destruct (body a v) as [[a'|res]| |]; cbn [obind] in *; try discriminate; [|exact E]. apply (IH n2 f1 f2 a' s' x); auto; lia.
  Qed.
  Lemma skip_loop_mono {T} (nx1 nx2 : stepfn S T) : upto nx1 nx2 ->
    forall n f1 f2 s x, f1 <= f2 -> skip_loop nx1 n f1 s = Done x -> skip_loop nx2 n f2 s = Done x.
  Proof.
    intros L. induction n as [|n IH]; intros f1 f2 s x Hf E; cbn [skip_loop] in *; [exact E|].
    destruct (nx1 f1 s) as [[[v [e|]] s']| |] eqn:F; cbn [obind] in E; try discriminate; rewrite (L _ _ _ _ Hf F); cbn [obind]; [exact E|].
    exact (IH _ _ _ _ Hf E).
  Qed.
End Mono.

Ltac use_loop L :=
  match goal with
  | E : context [pull_loop ?nx1 ?b ?o ?f1 ?f1 ?a ?s] |- context [pull_loop ?nx2 ?b ?o ?f2 ?f2 ?a ?s] =>
      let F := fresh "F" in
      destruct (pull_loop nx1 b o f1 f1 a s) as [[? ?]| |] eqn:F; cbn [obind] in E; try discriminate;
      rewrite (pull_loop_mono nx1 nx2 b o L f1 f2 f1 f2 a s _ ltac:(assumption) ltac:(assumption) F); cbn [obind]
  end.
Ltac use_next L :=
  match goal with
  | E : context [obind (?nx1 ?f1 ?s)] |- context [obind (?nx2 ?f2 ?s)] =>
      let F := fresh "F" in
      destruct (nx1 f1 s) as [[[? [?|]] ?]| |] eqn:F; cbn [obind] in E; try discriminate;
      rewrite (L _ _ _ _ ltac:(eassumption) F); cbn [obind]
  end.

Lemma stage_mono {S A B} (g : stage A B) (nx1 nx2 : stepfn S A) : upto nx1 nx2 -> upto (stage_fn g nx1) (stage_fn g nx2).
Proof.
  intros L f1 f2 st x Hf E. destruct g; cbn [stage_fn stage_state] in *.
  - unfold st_map in *. destruct st as [s c]. use_next L; exact E.
  - unfold st_map_error in *. destruct st as [s c]. use_next L; exact E.
  - unfold st_filter in *. destruct st as [s c]. use_loop L. exact E.
  - unfold st_peek in *. destruct st as [s c]. use_next L; exact E.
  - unfold st_skip in *. destruct st as [k s]. destruct (skip_loop nx1 k f1 s) as [[[e|] st']| |] eqn:K; cbn [obind] in E; try discriminate;
      rewrite (skip_loop_mono nx1 nx2 L k f1 f2 s _ Hf K); cbn [obind]; [exact E|]. use_next L; exact E.
  - unfold st_limit in *. destruct st as [[|k] s]; [exact E|]. use_next L; exact E.
  - unfold st_reduce_to in *. destruct st as [d s]. destruct d; [exact E|]. unfold reduce_loop in *.
    destruct identity as [|id ids]; use_next L; try exact E; use_loop L; exact E.
  - unfold st_reduce in *. destruct st as [d s]. destruct d; [exact E|]. unfold reduce_loop in *.
    destruct identity as [|id ids]; use_next L; try exact E; use_loop L; exact E.
  - unfold st_reduce_bool in *. destruct st as [d s]. destruct d; [exact E|]. cbv zeta in *. use_next L; try exact E.
    destruct (Bool.eqb (p a) stopVal); [exact E|]. use_loop L. exact E.
  - unfold st_to_slice in *. destruct st as [d s]. destruct d; [exact E|]. use_loop L. exact E.
  - unfold st_expand_slices in *. destruct st as [[slc idx] s]. destruct ((length slc =? 0) || (idx =? length slc)); [|exact E]. use_loop L. exact E.
  - unfold st_to_map in *. destruct st as [d s]. destruct d; [exact E|]. use_loop L. exact E.
  - unfold st_expand_maps in *. destruct st as [m s]. destruct m as [[|kv rest]|]; [|exact E|]; use_loop L; exact E.
Qed.
Lemma next_mono {S T} (ZT : Zero T) (f1 f2 : stepfn S T) : upto f1 f2 -> upto (next f1) (next f2).
Proof.
  intros L n1 n2 it x Hn E. unfold next in *. destruct (nth_error (buffer it) (length (buffer it) - 1)) as [v|]; [exact E|].
  destruct (fn_live it); [|exact E]. use_next L; exact E.
Qed.
Lemma pipe_mono {A B} (p : pipe A B) : forall S (nx1 nx2 : stepfn S A), upto nx1 nx2 -> upto (pipe_next p _ nx1) (pipe_next p _ nx2).
Proof.
  induction p as [A|A B C g p IH]; intros S nx1 nx2 L; [exact L|]. cbn [pipe_next].
  exact (IH _ _ _ (next_mono (stage_zero g) _ _ (stage_mono g _ _ L))).
Qed.

(** ** The worker over its range *)
Section Worker.
  Context {T U : Type} {ZT : Zero T} (p : pipe T U) (l : list T).
  Let tr : trace T := (l, Some EOI).
  Let out := fst (meaning p tr).
  Let F := pipe_next p _ (next (slice_gen l)).
  Let init := pipe_init p _ (@ofIter nat T 0).

  Lemma known_upto vals rest ended : vals ++ rest = l -> (ended = true -> rest = []) -> upto (known vals ended) (slice_gen l).
  Proof.
    intros E Hd f1 f2 i x _ K. unfold known in K. unfold slice_gen. rewrite <- E. destruct (nth_error vals i) as [v|] eqn:N.
    - injection K as <-. pose proof (nth_error_Some vals i) as [B _]. rewrite N in B. specialize (B ltac:(discriminate)).
      rewrite app_length. destruct (Nat.ltb_spec i (length vals + length rest)); [|lia]. rewrite nth_error_app1, N by exact B. reflexivity.
    - destruct ended; [|discriminate]. injection K as <-. rewrite (Hd eq_refl), app_nil_r. apply nth_error_None in N.
      destruct (Nat.ltb_spec i (length vals)); [lia|]. reflexivity.
  Qed.
  Lemma known_all : forall f i, known l true f i = slice_gen l f i.
  Proof.
    intros f i. unfold known, slice_gen. destruct (nth_error l i) as [v|] eqn:N.
    - pose proof (nth_error_Some l i) as [B _]. rewrite N in B. specialize (B ltac:(discriminate)). destruct (Nat.ltb_spec i (length l)); [reflexivity|lia].
    - apply nth_error_None in N. destruct (Nat.ltb_spec i (length l)); [lia|reflexivity].
  Qed.
  Lemma known_bound vals ended : agrees (fun i => i <= length vals) (known vals ended) (known vals ended).
  Proof.
    intros f i Hi. split; [reflexivity|]. intros r i' K. unfold known in K. destruct (nth_error vals i) as [v|] eqn:N.
    - injection K as _ <-. pose proof (nth_error_Some vals i) as [B _]. rewrite N in B. specialize (B ltac:(discriminate)). lia.
    - destruct ended; [|discriminate]. injection K as _ <-. exact Hi.
  Qed.

  Lemma pure_state k : covers (meaning p tr) k -> exists st, pulls F init (meaning p tr) k st /\ src (pipe_src p _ st) = Nat.min (demand p tr k) (length l).
  Proof.
    intros C. assert (G : gives (slice_gen l) 0 tr).
    { exists (length l). split; [apply slice_emits|]. intros e H. injection H as <-. exists (length l). apply slice_fails. }
    destruct (proj2 (pipe_reads p (slice_gen l) 0 tr (source ZT (slice_gen l) 0) tr (fun k => k) (source_reads ZT _ _ _ G)) k C) as (st & P1 & P2).
    revert st P1 P2. rewrite pipe_same. cbn [it_state it_next it_init it_source source]. intros st P1 P2. exists st. split; [exact P1|].
    apply slice_pulls in P2. exact P2.
  Qed.

  Variable e : err.
  Hypothesis END : snd (meaning p tr) = Some e.

  Lemma next_answer k st : k <= length out -> pulls F init (meaning p tr) k st ->
    exists st1 v, pulls F init (meaning p tr) (S k) st1 /\ src (pipe_src p _ st1) = Nat.min (demand p tr (S k)) (length l) /\
      match nth_error out k with Some v' => v = v' /\ returns F st (v, None) st1 | None => returns F st (v, Some e) st1 end.
  Proof.
    intros Hk P. destruct (pure_state (S k)) as (st1 & P1 & E1).
    { unfold covers. fold out. rewrite END. destruct (Nat.eq_dec k (length out)) as [->|]; [right; split; [reflexivity|discriminate]|left; lia]. }
    destruct (pulls_more _ _ _ _ _ P1) as (st' & P' & RR). fold out in RR. pose proof (pulls_det _ _ _ _ _ P _ P') as <-.
    destruct (nth_error out k) as [v|] eqn:EV.
    - exists st1, v. auto.
    - destruct RR as (e' & E' & [v R]). rewrite END in E'. injection E' as <-. exists st1, v. auto.
  Qed.

  (** Anything [Rel] about a worker that has returned [k] values, with [rest] unread, that is true before a read if it is after it *)
  Section Any.
    Variable Rel : nat -> worker p -> list T -> Prop.
    Hypothesis RD : forall k vals ended n st x rest,
      pipe_act p (mkWorker vals ended n st) = ARead (fun o => match o with Some x => mkWorker (vals ++ [x]) ended (S n) st | None => mkWorker vals true (S n) st end) ->
      Rel k (mkWorker (vals ++ [x]) ended (S n) st) rest -> Rel k (mkWorker vals ended n st) (x :: rest).
    Hypothesis RE : forall k vals ended n st,
      pipe_act p (mkWorker vals ended n st) = ARead (fun o => match o with Some x => mkWorker (vals ++ [x]) ended (S n) st | None => mkWorker vals true (S n) st end) ->
      Rel k (mkWorker vals true (S n) st) [] -> Rel k (mkWorker vals ended n st) [].

    (** the worker reads on until it knows enough for the next answer *)
    Lemma reads_on st r st1 k : returns F st r st1 ->
      (forall vals rest ended n, vals ++ rest = l -> (ended = true -> rest = []) -> src (pipe_src p _ st) <= length vals ->
        pipe_next p _ (next (known vals ended)) n st = Done (r, st1) -> Rel k (mkWorker vals ended n st) rest) ->
      forall vals rest ended n, vals ++ rest = l -> (ended = true -> rest = []) -> src (pipe_src p _ st) <= length vals ->
      Rel k (mkWorker vals ended n st) rest.
    Proof.
      intros [N R] HK.
      assert (K : forall M vals rest ended n, (N - n) + length rest + (if ended : bool then 0 else 1) <= M ->
        vals ++ rest = l -> (ended = true -> rest = []) -> src (pipe_src p _ st) <= length vals ->
        Rel k (mkWorker vals ended n st) rest).
      { induction M as [M IHM] using lt_wf_ind. intros vals rest ended n HM EL Hd Hs.
        pose proof (pipe_mono p _ _ _ (next_mono ZT _ _ (known_upto vals rest ended EL Hd))) as MO.
        assert (D : (exists x, pipe_next p _ (next (known vals ended)) n st = Done x) \/
          pipe_act p (mkWorker vals ended n st) = ARead (fun o => match o with Some x => mkWorker (vals ++ [x]) ended (S n) st | None => mkWorker vals true (S n) st end) /\
          forall x, pipe_next p _ (next (known vals ended)) n st <> Done x).
        { unfold pipe_act. cbn [w_vals w_ended w_fuel w_pipe]. destruct (pipe_next p _ (next (known vals ended)) n st) as [x| |]; [left; eauto|right..]; (split; [reflexivity|discriminate]). }
        destruct D as [[x X]|[A X]].
        - apply HK; auto. pose proof (MO n (N + n) st _ ltac:(lia) X) as X2. fold F in X2. rewrite (R (N + n) ltac:(lia)) in X2. congruence.
        - destruct rest as [|x rest].
          + assert (Hn : ended = true -> n < N).
            { intros ->. destruct (Nat.lt_ge_cases n N) as [|G]; [assumption|]. exfalso. rewrite app_nil_r in EL. subst vals.
              pose proof (R n G) as Y. unfold F in Y. apply (X (r, st1)). rewrite <- Y.
              assert (AG : agrees (fun _ => True) (known l true) (slice_gen l)) by (intros f i _; split; [apply known_all|intros; exact Logic.I]).
              exact (proj1 (pipe_local p _ (fun _ => True) _ _ (next_local ZT (fun _ => True) _ _ AG) n st Logic.I)). }
            apply (RE k vals ended n st A). refine (IHM ((N - S n) + 0) _ vals [] true (S n) _ EL (fun _ => eq_refl) Hs); cbn [length] in *; destruct ended; try specialize (Hn eq_refl); lia.
          + apply (RD k vals ended n st x rest A).
            assert (ended = false) as -> by (destruct ended; [discriminate (Hd eq_refl)|reflexivity]).
            cbn [length] in HM. apply (IHM ((N - S n) + length rest + 1)); [lia|lia|rewrite <- app_assoc; exact EL|discriminate|rewrite app_length; lia]. }
      intros. eapply K; eauto.
    Qed.

    Hypothesis RM : forall k v vals ended n st st1 rest, pipe_act p (mkWorker vals ended n st) = AEmit v (mkWorker vals ended n st1) ->
      nth_error out k = Some v -> Nat.min (demand p tr (S k)) (length l) <= length vals ->
      Rel (S k) (mkWorker vals ended n st1) rest -> Rel k (mkWorker vals ended n st) rest.
    Hypothesis RN : forall w rest, pipe_act p w = AEnd e -> Rel (length out) w rest.

    Lemma worker_from : forall todo k, k + todo = length out -> forall st, pulls F init (meaning p tr) k st ->
      forall vals rest ended n, vals ++ rest = l -> (ended = true -> rest = []) -> src (pipe_src p _ st) <= length vals ->
      Rel k (mkWorker vals ended n st) rest.
    Proof.
      induction todo as [|todo IHt]; intros k Hk st P;
        destruct (next_answer k st ltac:(lia) P) as (st1 & v & P1 & E1 & RV).
      - assert (EV : nth_error out k = None) by (apply nth_error_None; lia). rewrite EV in RV. apply (reads_on st _ st1 k RV).
        intros vals rest ended n EL Hd Hs X. replace k with (length out) by lia. apply RN. unfold pipe_act. cbn [w_vals w_ended w_fuel w_pipe]. rewrite X. reflexivity.
      - destruct (nth_error out k) as [v'|] eqn:EV; [|apply nth_error_None in EV; lia]. destruct RV as [-> RV]. apply (reads_on st _ st1 k RV).
        intros vals rest ended n EL Hd Hs X.
        assert (B : src (pipe_src p _ st1) <= length vals).
        { refine (proj2 (pipe_local p _ (fun it => src it <= length vals) _ _ (next_local ZT _ _ _ (known_bound vals ended)) n st Hs) _ _ X). }
        refine (RM k v' vals ended n st st1 rest _ EV ltac:(rewrite <- E1; exact B) (IHt (S k) ltac:(lia) st1 P1 vals rest ended n EL Hd B)).
        unfold pipe_act. cbn [w_vals w_ended w_fuel w_pipe]. rewrite X. reflexivity.
    Qed.
    Lemma worker_all : Rel 0 (pipe_worker p) l.
    Proof.
      refine (worker_from (length out) 0 eq_refl init _ [] l false 1 eq_refl _ _); [constructor|discriminate|].
      destruct (pure_state 0) as (st & P & E); [left; lia|]. inversion P; subst. fold init. rewrite E, demand_0. reflexivity.
    Qed.
  End Any.

  Lemma skipn_nth {X} (xs : list X) : forall k v, nth_error xs k = Some v -> skipn k xs = v :: skipn (S k) xs.
  Proof. induction xs as [|y q IH]; intros [|k] v EV; try discriminate; cbn in EV |- *; [congruence|]. apply IH. exact EV. Qed.

  (** one that is no faster than its source *)
  Theorem pipe_worker_runs : no_faster p l -> length out <= length l -> runs (pipe_act p) 0 (pipe_worker p) l out e.
  Proof.
    intros NF LEN.
    refine (worker_all (fun k w rest => k <= length (w_vals w) -> runs (pipe_act p) (length (w_vals w) - k) w rest (skipn k out) e) _ _ _ _ (le_0_n _)); cbn [w_vals].
    - intros k vals ended n st x rest A H Hk. eapply runs_read; [exact A|]. cbn beta iota. rewrite app_length in H. cbn [length] in H.
      replace (S (length vals - k)) with (length vals + 1 - k) by lia. apply H. lia.
    - intros k vals ended n st A H Hk. eapply runs_eoi; [exact A|]. exact (H Hk).
    - intros k v vals ended n st st1 rest A EV B H Hk.
      assert (SK : S k <= length out) by (apply nth_error_Some; congruence).
      assert (K : S k <= length vals). { pose proof (NF (S k)) as Y. fold tr in Y. fold out in Y. specialize (Y SK). lia. }
      rewrite (skipn_nth _ _ _ EV). replace (length vals - k) with (S (length vals - S k)) by lia. eapply runs_emit; [exact A|]. exact (H K).
    - intros w rest A Hk. rewrite skipn_all. apply runs_end. exact A.
  Qed.
  (** any *)
  Theorem pipe_worker_makes : makes (pipe_act p) (pipe_worker p) l out e.
  Proof.
    refine (worker_all (fun k w rest => makes (pipe_act p) w rest (skipn k out) e) _ _ _ _).
    - intros k vals ended n st x rest A H. eapply makes_read; [exact A|]. exact H.
    - intros k vals ended n st A H. eapply makes_eoi; [exact A|]. exact H.
    - intros k v vals ended n st st1 rest A EV B H. rewrite (skipn_nth _ _ _ EV). eapply makes_emit; [exact A|]. exact H.
    - intros w rest A. rewrite skipn_all. apply makes_end. exact A.
  Qed.
  (** one that returns more values than its source has *)
  Theorem pipe_worker_overruns : (forall k, k <= length l -> k <= demand p tr k) -> length l < length out ->
    overruns (pipe_act p) 0 (pipe_worker p) l (length l).
  Proof.
    intros NF LEN. rewrite <- (Nat.sub_0_r (length l)).
    refine (worker_all (fun k w rest => k <= length l -> k <= length (w_vals w) -> overruns (pipe_act p) (length (w_vals w) - k) w rest (length l - k)) _ _ _ _ (le_0_n _) (le_0_n _)); cbn [w_vals].
    - intros k vals ended n st x rest A H Hl Hk. eapply over_read; [exact A|]. cbn beta iota. rewrite app_length in H. cbn [length] in H.
      replace (S (length vals - k)) with (length vals + 1 - k) by lia. apply H; lia.
    - intros k vals ended n st A H Hl Hk. eapply over_eoi; [exact A|]. exact (H Hl Hk).
    - intros k v vals ended n st st1 rest A EV B H Hl Hk. destruct (Nat.eq_dec k (length l)) as [->|N].
      + rewrite Nat.sub_diag. eapply over_more. exact A.
      + assert (K : S k <= length vals) by (pose proof (NF (S k)); lia).
        replace (length vals - k) with (S (length vals - S k)) by lia. replace (length l - k) with (S (length l - S k)) by lia.
        eapply over_emit; [exact A|]. apply H; lia.
    - intros w rest A Hl. lia.
  Qed.
End Worker.
