(** Pipelines see their source only through the results of its calls. *)
From Verif Require Import Base Iter IterGen IterSpec IterProofs IterGenProofs Stream StreamSpec StreamProofs Pipe PipeSpec PipeProofs MemIter MemIterProofs Shared SharedSpec.
Open Scope go_scope.
Open Scope nat_scope.

Lemma took_app {S A} (nx : stepfn S A) fuel a : forall s b s', took nx fuel s (a ++ b) s' <-> exists s1, took nx fuel s a s1 /\ took nx fuel s1 b s'.
Proof.
  induction a as [|r a IH]; intros s b s'; cbn [app].
  - split; [intros H; exists s; split; [constructor|exact H]|]. intros (s1 & H1 & H2). inversion H1; subst. exact H2.
  - split.
    + intros H. inversion H; subst. apply IH in H5. destruct H5 as (x & R1 & R2). exists x. split; auto. econstructor; eauto.
    + intros (x & H1 & H2). inversion H1; subst. econstructor; eauto. apply IH. eauto.
Qed.
Lemma took_one {S A} (nx : stepfn S A) fuel s r s' : nx fuel s = Done (r, s') -> took nx fuel s [r] s'.
Proof. intros H. econstructor; [exact H|constructor]. Qed.
Lemma took_one_inv {S A} (nx : stepfn S A) fuel s r s' : took nx fuel s [r] s' -> nx fuel s = Done (r, s').
Proof. intros H. inversion H as [|? ? s1 ? ? E T]; subst. inversion T; subst. exact E. Qed.

Section Track.
  Context {S1 : Type} (fuel : nat).
  Lemma pull_loop_track {T A R} (nx1 : stepfn S1 T) (body : A -> T -> outcome (A + R)) onerr : forall loop a s r s',
    pull_loop nx1 body onerr loop fuel a s = Done (r, s') -> exists rs, took nx1 fuel s rs s' /\
      forall S2 (nx2 : stepfn S2 T) s2 s2', took nx2 fuel s2 rs s2' -> pull_loop nx2 body onerr loop fuel a s2 = Done (r, s2').
  Proof.
    induction loop as [|loop IH]; intros a s r s' H; cbn [pull_loop] in H; [discriminate|].
    destruct (nx1 fuel s) as [[[v [e|]] s1]| |] eqn:E; cbn [obind] in H; try discriminate.
    - injection H as <- <-. exists [(v, Some e)]. split; [apply took_one; exact E|]. intros S2 nx2 s2 s2' TK. apply took_one_inv in TK. cbn [pull_loop]. rewrite TK. reflexivity.
    - destruct (body a v) as [[a'|res]| |] eqn:EB; cbn [obind] in H; try discriminate.
      + destruct (IH _ _ _ _ H) as (rs & TK & K). exists ((v, None) :: rs). split; [econstructor; eauto|]. intros S2 nx2 s2 s2' T2. inversion T2; subst. cbn [pull_loop].
        match goal with X : nx2 fuel s2 = _ |- _ => rewrite X end. cbn [obind]. rewrite EB. cbn [obind]. apply K. assumption.
      + injection H as <- <-. exists [(v, None)]. split; [apply took_one; exact E|]. intros S2 nx2 s2 s2' TK. apply took_one_inv in TK. cbn [pull_loop]. rewrite TK. cbn [obind]. rewrite EB. reflexivity.
  Qed.
  Lemma skip_loop_track {T} (nx1 : stepfn S1 T) : forall n s e st', skip_loop nx1 n fuel s = Done (e, st') -> exists rs, took nx1 fuel s rs (snd st') /\
    forall S2 (nx2 : stepfn S2 T) s2 s2', took nx2 fuel s2 rs s2' -> skip_loop nx2 n fuel s2 = Done (e, (fst st', s2')).
  Proof.
    induction n as [|n IH]; intros s e st' H; cbn [skip_loop] in H.
    - injection H as <- <-. exists []. split; [constructor|]. intros S2 nx2 s2 s2' TK. inversion TK; subst. reflexivity.
    - destruct (nx1 fuel s) as [[[v [e'|]] s1]| |] eqn:E; cbn [obind] in H; try discriminate.
      + injection H as <- <-. exists [(v, Some e')]. split; [apply took_one; exact E|]. intros S2 nx2 s2 s2' TK. apply took_one_inv in TK. cbn [skip_loop]. rewrite TK. reflexivity.
      + destruct (IH _ _ _ H) as (rs & TK & K). exists ((v, None) :: rs). split; [econstructor; eauto|]. intros S2 nx2 s2 s2' T2. inversion T2; subst. cbn [skip_loop].
        match goal with X : nx2 fuel s2 = _ |- _ => rewrite X end. cbn [obind]. apply K. assumption.
  Qed.
  Lemma reduce_loop_track {T U} (ZU : Zero U) (nx1 : stepfn S1 T) (f : U -> T -> U) a s r st' : reduce_loop nx1 f a fuel s = Done (r, st') ->
    exists rs, took nx1 fuel s rs (snd st') /\ forall S2 (nx2 : stepfn S2 T) s2 s2', took nx2 fuel s2 rs s2' -> reduce_loop nx2 f a fuel s2 = Done (r, (fst st', s2')).
  Proof.
    unfold reduce_loop. match goal with |- context [pull_loop nx1 ?b ?o fuel fuel a s] => destruct (pull_loop nx1 b o fuel fuel a s) as [[r' s']| |] eqn:E end; cbn [obind]; try discriminate.
    intros H. injection H as <- <-. destruct (pull_loop_track _ _ _ _ _ _ _ _ E) as (rs & TK & K). exists rs. split; [exact TK|]. intros S2 nx2 s2 s2' T2. rewrite (K S2 nx2 s2 s2' T2). reflexivity.
  Qed.

  Ltac one E := (eexists; split; [apply took_one; exact E|]; intros S2 nx2 s2 s2' T2; apply took_one_inv in T2; cbn [stage_fn stage_put fst snd]).
  Lemma stage_track {A B} (g : stage A B) (nx1 : stepfn S1 A) st r st' : stage_fn g nx1 fuel st = Done (r, st') ->
    exists rs, took nx1 fuel (stage_src g st) rs (stage_src g st') /\
      forall S2 (nx2 : stepfn S2 A) s2 s2', took nx2 fuel s2 rs s2' -> stage_fn g nx2 fuel (stage_put g st s2) = Done (r, stage_put g st' s2').
  Proof.
    destruct g; cbn [stage_fn stage_src stage_state stage_put] in *.
    - unfold st_map at 1. destruct st as [s c]. cbn [fst snd]. destruct (nx1 fuel s) as [[[v [e|]] s']| |] eqn:E; cbn [obind]; try discriminate; [|destruct (f c v) as [u c'] eqn:EF]; intros H; injection H as <- <-;
        one E; unfold st_map; rewrite T2; cbn [obind]; rewrite ?EF; reflexivity.
    - unfold st_map_error at 1. destruct st as [s c]. cbn [fst snd]. destruct (nx1 fuel s) as [[[v [e|]] s']| |] eqn:E; cbn [obind]; try discriminate; [|destruct (f c v) as [[u [e|]] c'] eqn:EF]; intros H; injection H as <- <-;
        one E; unfold st_map_error; rewrite T2; cbn [obind]; rewrite ?EF; reflexivity.
    - unfold st_filter at 1. destruct st as [s c]. cbn [fst snd].
      match goal with |- context [pull_loop nx1 ?b ?o fuel fuel c s] => destruct (pull_loop nx1 b o fuel fuel c s) as [[r' s']| |] eqn:E end; cbn [obind]; try discriminate.
      intros H. destruct r' as [r0 c0']. injection H as <- <-. destruct (pull_loop_track _ _ _ _ _ _ _ _ E) as (rs & T & K). exists rs. split; [exact T|]. intros S2 nx2 s2 s2' T2. unfold st_filter. rewrite (K S2 nx2 s2 s2' T2). reflexivity.
    - unfold st_peek at 1. destruct st as [s c]. cbn [fst snd]. destruct (nx1 fuel s) as [[[v [e|]] s']| |] eqn:E; cbn [obind]; try discriminate; intros H; injection H as <- <-;
        one E; unfold st_peek; rewrite T2; reflexivity.
    - unfold st_skip at 1. destruct st as [k s]. cbn [fst snd]. destruct (skip_loop nx1 k fuel s) as [[[e|] st1]| |] eqn:E; cbn [obind]; try discriminate; destruct (skip_loop_track nx1 _ _ _ _ E) as (rs & T & K).
      + intros H. injection H as <- <-. exists rs. split; [exact T|]. intros S2 nx2 s2 s2' T2. unfold st_skip. rewrite (K S2 nx2 s2 s2' T2). reflexivity.
      + destruct (nx1 fuel (snd st1)) as [[[v [e|]] s']| |] eqn:E2; cbn [obind]; try discriminate; intros H; injection H as <- <-;
        (eexists; split; [apply took_app; exists (snd st1); split; [exact T|apply took_one; exact E2]|]; intros S2 nx2 s2 s2' T2; apply took_app in T2; destruct T2 as (sm & T3 & T4); apply took_one_inv in T4;
         unfold st_skip; rewrite (K S2 nx2 s2 sm T3); cbn [obind snd fst]; rewrite T4; reflexivity).
    - unfold st_limit at 1. destruct st as [k s]. cbn [fst snd]. destruct k as [|k]; [intros H; injection H as <- <-; exists []; split; [constructor|]; intros S2 nx2 s2 s2' T; inversion T; subst; reflexivity|].
      destruct (nx1 fuel s) as [[[v [e|]] s']| |] eqn:E; cbn [obind]; try discriminate; intros H; injection H as <- <-;
        one E; unfold st_limit; rewrite T2; reflexivity.
    - unfold st_reduce_to at 1. destruct st as [d s]. cbn [fst snd]. destruct d; [intros H; injection H as <- <-; exists []; split; [constructor|]; intros S2 nx2 s2 s2' T; inversion T; subst; reflexivity|].
      destruct identity as [|id ids]; (destruct (nx1 fuel s) as [[[v [e|]] s']| |] eqn:E; cbn [obind]; try discriminate).
      + intros H; injection H as <- <-. one E; unfold st_reduce_to; rewrite T2; reflexivity.
      + intros H. destruct (reduce_loop_track _ _ _ _ _ _ _ H) as (rs & T & K). exists ((v, None) :: rs). split; [econstructor; eauto|]. intros S2 nx2 s2 s2' T2. inversion T2; subst. unfold st_reduce_to. match goal with X : nx2 fuel s2 = _ |- _ => rewrite X end. cbn [obind]. apply K. assumption.
      + intros H. exists [(v, Some e)]. split; [apply took_one; rewrite E; f_equal; f_equal; destruct e; injection H as <- <-; reflexivity|]. intros S2 nx2 s2 s2' T2. apply took_one_inv in T2. unfold st_reduce_to. rewrite T2. cbn [obind]. destruct e; injection H as <- <-; reflexivity.
      + intros H. destruct (reduce_loop_track _ _ _ _ _ _ _ H) as (rs & T & K). exists ((v, None) :: rs). split; [econstructor; eauto|]. intros S2 nx2 s2 s2' T2. inversion T2; subst. unfold st_reduce_to. match goal with X : nx2 fuel s2 = _ |- _ => rewrite X end. cbn [obind]. apply K. assumption.
    - unfold st_reduce at 1. destruct st as [d s]. cbn [fst snd]. destruct d; [intros H; injection H as <- <-; exists []; split; [constructor|]; intros S2 nx2 s2 s2' T; inversion T; subst; reflexivity|].
      destruct identity as [|id ids]; (destruct (nx1 fuel s) as [[[v [e|]] s']| |] eqn:E; cbn [obind]; try discriminate).
      + intros H; injection H as <- <-. one E; unfold st_reduce; rewrite T2; reflexivity.
      + intros H. destruct (reduce_loop_track _ _ _ _ _ _ _ H) as (rs & T & K). exists ((v, None) :: rs). split; [econstructor; eauto|]. intros S2 nx2 s2 s2' T2. inversion T2; subst. unfold st_reduce. match goal with X : nx2 fuel s2 = _ |- _ => rewrite X end. cbn [obind]. apply K. assumption.
      + intros H. exists [(v, Some e)]. split; [apply took_one; rewrite E; f_equal; f_equal; destruct e; injection H as <- <-; reflexivity|]. intros S2 nx2 s2 s2' T2. apply took_one_inv in T2. unfold st_reduce. rewrite T2. cbn [obind]. destruct e; injection H as <- <-; reflexivity.
      + intros H. destruct (reduce_loop_track _ _ _ _ _ _ _ H) as (rs & T & K). exists ((v, None) :: rs). split; [econstructor; eauto|]. intros S2 nx2 s2 s2' T2. inversion T2; subst. unfold st_reduce. match goal with X : nx2 fuel s2 = _ |- _ => rewrite X end. cbn [obind]. apply K. assumption.
    - unfold st_reduce_bool at 1. destruct st as [d s]. cbn [fst snd]. destruct d; [intros H; injection H as <- <-; exists []; split; [constructor|]; intros S2 nx2 s2 s2' T; inversion T; subst; reflexivity|].
      destruct (nx1 fuel s) as [[[v [e|]] s']| |] eqn:E; cbn [obind]; try discriminate.
      + intros H. exists [(v, Some e)]. split; [apply took_one; rewrite E; f_equal; f_equal; destruct e; injection H as <- <-; reflexivity|]. intros S2 nx2 s2 s2' T2. apply took_one_inv in T2. unfold st_reduce_bool. rewrite T2. cbn [obind]. destruct e; injection H as <- <-; reflexivity.
      + cbv zeta. destruct (Bool.eqb (p v) stopVal) eqn:EB.
        * intros H; injection H as <- <-. one E; unfold st_reduce_bool; rewrite T2; cbn [obind]; cbv zeta; rewrite EB; reflexivity.
        * match goal with |- context [pull_loop nx1 ?b ?o fuel fuel ?c s'] => destruct (pull_loop nx1 b o fuel fuel c s') as [[r' s2']| |] eqn:E2 end; cbn [obind]; try discriminate.
          intros H. injection H as <- <-. destruct (pull_loop_track _ _ _ _ _ _ _ _ E2) as (rs & T & K). exists ((v, None) :: rs). split; [econstructor; eauto|]. intros S2 nx2 s2 sx T2. inversion T2; subst. unfold st_reduce_bool.
          match goal with X : nx2 fuel s2 = _ |- _ => rewrite X end. cbn [obind]. cbv zeta. rewrite EB. match goal with X : took nx2 fuel _ rs _ |- _ => rewrite (K _ _ _ _ X) end. reflexivity.
    - unfold st_to_slice at 1. destruct st as [d s]. cbn [fst snd]. destruct d; [intros H; injection H as <- <-; exists []; split; [constructor|]; intros S2 nx2 s2 s2' T; inversion T; subst; reflexivity|].
      match goal with |- context [pull_loop nx1 ?b ?o fuel fuel ?c s] => destruct (pull_loop nx1 b o fuel fuel c s) as [[r' s']| |] eqn:E end; cbn [obind]; try discriminate.
      intros H. injection H as <- <-. destruct (pull_loop_track _ _ _ _ _ _ _ _ E) as (rs & T & K). exists rs. split; [exact T|]. intros S2 nx2 s2 s2' T2. unfold st_to_slice. rewrite (K S2 nx2 s2 s2' T2). reflexivity.
    - unfold st_expand_slices at 1. destruct st as [[slc idx] s]. cbn [fst snd]. destruct ((length slc =? 0) || (idx =? length slc)) eqn:EC.
      + match goal with |- context [pull_loop nx1 ?b ?o fuel fuel ?c s] => destruct (pull_loop nx1 b o fuel fuel c s) as [[r' s']| |] eqn:E end; cbn [obind]; try discriminate.
        destruct (pull_loop_track _ _ _ _ _ _ _ _ E) as (rs & T & K). destruct r' as [sl|e]; [destruct (nth_error sl 0) as [v|] eqn:EN; [|discriminate]|]; intros H; injection H as <- <-;
        (exists rs; split; [exact T|]; intros S2 nx2 s2 s2' T2; unfold st_expand_slices; rewrite EC, (K S2 nx2 s2 s2' T2); cbn [obind]; rewrite ?EN; reflexivity).
      + destruct (nth_error slc idx) as [v|] eqn:EN; [|discriminate]. intros H. injection H as <- <-. exists []. split; [constructor|]. intros S2 nx2 s2 s2' T. inversion T; subst. unfold st_expand_slices. rewrite EC, EN. reflexivity.
    - unfold st_to_map at 1. destruct st as [d s]. cbn [fst snd]. destruct d; [intros H; injection H as <- <-; exists []; split; [constructor|]; intros S2 nx2 s2 s2' T; inversion T; subst; reflexivity|].
      match goal with |- context [pull_loop nx1 ?b ?o fuel fuel ?c s] => destruct (pull_loop nx1 b o fuel fuel c s) as [[r' s']| |] eqn:E end; cbn [obind]; try discriminate.
      intros H. injection H as <- <-. destruct (pull_loop_track _ _ _ _ _ _ _ _ E) as (rs & T & K0). exists rs. split; [exact T|]. intros S2 nx2 s2 s2' T2. unfold st_to_map. cbn [fst]. rewrite (K0 S2 nx2 s2 s2' T2). reflexivity.
    - unfold st_expand_maps at 1. destruct st as [m s]. cbn [fst snd]. destruct m as [[|kv rest]|].
      2: { intros H. injection H as <- <-. exists []. split; [constructor|]. intros S2 nx2 s2 s2' T. inversion T; subst. reflexivity. }
      + match goal with |- context [pull_loop nx1 ?b ?o fuel fuel ?c ?x] => destruct (pull_loop nx1 b o fuel fuel c x) as [[r' s']| |] eqn:E end; cbn [obind]; try discriminate;
        destruct (pull_loop_track _ _ _ _ _ _ _ _ E) as (rs & T & K0); destruct r' as [[kv' rest']|e]; cbn; intros H; injection H as <- <-;
        (exists rs; split; [exact T|]; intros S2 nx2 s2 s2' T2; unfold st_expand_maps; rewrite (K0 S2 nx2 s2 s2' T2); reflexivity).
    + match goal with |- context [pull_loop nx1 ?b ?o fuel fuel ?c ?x] => destruct (pull_loop nx1 b o fuel fuel c x) as [[r' s']| |] eqn:E end; cbn [obind]; try discriminate;
        destruct (pull_loop_track _ _ _ _ _ _ _ _ E) as (rs & T & K0); destruct r' as [[kv' rest']|e]; cbn; intros H; injection H as <- <-;
        (exists rs; split; [exact T|]; intros S2 nx2 s2 s2' T2; unfold st_expand_maps; rewrite (K0 S2 nx2 s2 s2' T2); reflexivity).
Qed.
  Lemma iter_track {A B} (g : stage A B) (nx1 : stepfn S1 A) it r it' : next (H := stage_zero g) (stage_fn g nx1) fuel it = Done (r, it') ->
    exists rs, took nx1 fuel (stage_src g (src it)) rs (stage_src g (src it')) /\
      forall S2 (nx2 : stepfn S2 A) s2 s2', took nx2 fuel s2 rs s2' -> next (H := stage_zero g) (stage_fn g nx2) fuel (iter_put g it s2) = Done (r, iter_put g it' s2').
  Proof.
    unfold next at 1. destruct (nth_error (buffer it) (length (buffer it) - 1)) as [v|] eqn:EB.
    - intros H. injection H as <- <-. cbn [src]. exists []. split; [constructor|]. intros S2 nx2 s2 s2' T. inversion T; subst. unfold next. cbn [buffer iter_put]. rewrite EB. reflexivity.
    - destruct (fn_live it) eqn:EL.
      + destruct (stage_fn g nx1 fuel (src it)) as [[[v [e|]] st']| |] eqn:E; cbn [obind]; try discriminate; intros H; injection H as <- <-; cbn [src];
          destruct (stage_track g nx1 _ _ _ E) as (rs & T & K); (exists rs; split; [exact T|]); intros S2 nx2 s2 s2' T2; unfold next; cbn [buffer iter_put fn_live src]; rewrite EB, EL, (K _ _ _ _ T2); reflexivity.
      + intros H. injection H as <- <-. exists []. split; [constructor|]. intros S2 nx2 s2 s2' T. inversion T; subst. unfold next. cbn [buffer iter_put fn_live last_err]. rewrite EB, EL. reflexivity.
  Qed.
  Lemma iters_track {A B} (g : stage A B) (nx1 : stepfn S1 A) : forall rs' it it', took (next (H := stage_zero g) (stage_fn g nx1)) fuel it rs' it' ->
    exists rs, took nx1 fuel (stage_src g (src it)) rs (stage_src g (src it')) /\
      forall S2 (nx2 : stepfn S2 A) s2 s2', took nx2 fuel s2 rs s2' -> took (next (H := stage_zero g) (stage_fn g nx2)) fuel (iter_put g it s2) rs' (iter_put g it' s2').
  Proof.
    induction rs' as [|r rs' IH]; intros it it' H; inversion H; subst.
    - exists []. split; [constructor|]. intros S2 nx2 s2 s2' T. inversion T; subst. constructor.
    - match goal with X : next _ _ _ = _ |- _ => destruct (iter_track g nx1 _ _ _ X) as (rs1 & T1 & K1) end. match goal with X : took _ _ _ rs' _ |- _ => destruct (IH _ _ X) as (rs2 & T2 & K2) end.
      exists (rs1 ++ rs2). split; [apply took_app; eauto|]. intros S2 nx2 s2 s2' T. apply took_app in T. destruct T as (sm & Ta & Tb). econstructor; [apply K1; exact Ta|apply K2; exact Tb].
  Qed.
End Track.

Lemma pipe_track {A B} (p : pipe A B) : forall S1 (nx1 : stepfn S1 A) fuel st r st', pipe_next p S1 nx1 fuel st = Done (r, st') ->
  exists rs, took nx1 fuel (pipe_src p _ st) rs (pipe_src p _ st') /\
    forall S2 (nx2 : stepfn S2 A) s2 s2', took nx2 fuel s2 rs s2' -> pipe_next p S2 nx2 fuel (pipe_put p _ _ st s2) = Done (r, pipe_put p _ _ st' s2').
Proof.
  induction p as [A|A B C g p IH]; intros S1 nx1 fuel st r st' H; cbn [pipe_next pipe_src pipe_put pipe_state] in *.
  - exists [r]. split; [apply took_one; exact H|]. intros S2 nx2 s2 s2' T. apply took_one_inv in T. exact T.
  - destruct (IH _ _ _ _ _ _ H) as (rs' & T' & K'). destruct (iters_track fuel g nx1 _ _ _ T') as (rs & T & K). exists rs. split; [exact T|].
    intros S2 nx2 s2 s2' T2. apply K'. apply K. exact T2.
Qed.

(** ** Putting a source into a pipeline *)
Lemma stage_src_put {A B} (g : stage A B) {S1 S2} (st : stage_state g S1) (s : S2) : stage_src g (stage_put g st s) = s.
Proof. destruct g; reflexivity. Qed.
Lemma stage_put_put {A B} (g : stage A B) {S1 S2 S3} (st : stage_state g S1) (s : S2) (s' : S3) : stage_put g (stage_put g st s) s' = stage_put g st s'.
Proof. destruct g; reflexivity. Qed.
Lemma stage_put_src {A B} (g : stage A B) {S} (st : stage_state g S) : stage_put g st (stage_src g st) = st.
Proof. destruct g; destruct st; reflexivity. Qed.
Lemma stage_put_init {A B} (g : stage A B) {S1 S2} (s : S1) (s' : S2) : stage_put g (stage_init g s) s' = stage_init g s'.
Proof. destruct g; reflexivity. Qed.
Lemma stage_src_init {A B} (g : stage A B) {S} (s : S) : stage_src g (stage_init g s) = s.
Proof. destruct g; reflexivity. Qed.
Lemma pipe_src_put {A B} (p : pipe A B) : forall S1 S2 (st : pipe_state p S1) (s : S2), pipe_src p _ (pipe_put p _ _ st s) = s.
Proof.
  induction p as [A|A B C g p IH]; intros S1 S2 st s; [reflexivity|]. cbn [pipe_src pipe_put]. rewrite IH. cbn [iter_put src]. apply stage_src_put.
Qed.
Lemma pipe_put_put {A B} (p : pipe A B) : forall S1 S2 S3 (st : pipe_state p S1) (s : S2) (s' : S3), pipe_put p _ _ (pipe_put p _ _ st s) s' = pipe_put p _ _ st s'.
Proof.
  induction p as [A|A B C g p IH]; intros S1 S2 S3 st s s'; [reflexivity|]. cbn [pipe_put]. rewrite IH, pipe_src_put. f_equal. unfold iter_put. cbn [fn_live src buffer last_err]. rewrite stage_put_put. reflexivity.
Qed.
Lemma pipe_put_src {A B} (p : pipe A B) : forall S (st : pipe_state p S), pipe_put p _ _ st (pipe_src p _ st) = st.
Proof.
  induction p as [A|A B C g p IH]; intros S st; [reflexivity|]. cbn [pipe_put pipe_src]. unfold iter_put. rewrite stage_put_src.
  match goal with |- pipe_put p _ _ st ?x = st => assert (E : x = pipe_src p _ st) by (destruct (pipe_src p _ st); reflexivity) end. rewrite E. apply IH.
Qed.
Lemma pipe_src_init {A B} (p : pipe A B) : forall S (s : S), pipe_src p _ (pipe_init p _ s) = s.
Proof. induction p as [A|A B C g p IH]; intros S s; [reflexivity|]. cbn [pipe_src pipe_init]. rewrite IH. cbn [ofIter src]. apply stage_src_init. Qed.
Lemma pipe_put_init {A B} (p : pipe A B) : forall S1 S2 (s : S1) (s' : S2), pipe_put p _ _ (pipe_init p _ s) s' = pipe_init p _ s'.
Proof.
  induction p as [A|A B C g p IH]; intros S1 S2 s s'; [reflexivity|]. cbn [pipe_put pipe_init]. rewrite pipe_src_init, IH. f_equal. unfold iter_put, ofIter. cbn. rewrite stage_put_init. reflexivity.
Qed.

(** ** Any source *)
Section Any.
  Context {S0 A B C : Type} (p : pipe A B) (q : pipe A C) (nx : stepfn S0 A) (fuel : nat).
  (** what [p] does alone on a source that returns [rs] *)
  Definition alone {B'} (p' : pipe A B') (st : pipe_state p' S0) (k : nat) (rs : list (ret A)) (out : list (ret B')) (st' : pipe_state p' S0) : Prop :=
    forall S2 (nx2 : stepfn S2 A) s2 s2', took nx2 fuel s2 rs s2' -> ncalls (pipe_next p' S2 nx2) fuel k (pipe_put p' _ _ st s2) = Done (out, pipe_put p' _ _ st' s2').
  Lemma alone_0 {B'} (p' : pipe A B') st : alone p' st 0 [] [] st.
  Proof. intros S2 nx2 s2 s2' T. inversion T; subst. reflexivity. Qed.
  Lemma alone_S {B'} (p' : pipe A B') st s r st1 k rs2 out st' : pipe_next p' S0 nx fuel (pipe_put p' _ _ st s) = Done (r, st1) -> alone p' st1 k rs2 out st' ->
    exists rs1, took nx fuel s rs1 (pipe_src p' _ st1) /\ alone p' st (Datatypes.S k) (rs1 ++ rs2) (r :: out) st'.
  Proof.
    intros H K. destruct (pipe_track p' _ _ _ _ _ _ H) as (rs1 & T & F). rewrite pipe_src_put in T. exists rs1. split; [exact T|].
    intros S2 nx2 s2 s2' T2. apply took_app in T2. destruct T2 as (sm & Ta & Tb). cbn [ncalls].
    specialize (F S2 nx2 s2 sm Ta). rewrite pipe_put_put in F. rewrite F. cbn [obind]. rewrite (K S2 nx2 sm s2' Tb). reflexivity.
  Qed.
  Lemma share_app {T} b : forall (o1 o2 : list bool) (l1 l2 : list T), length o1 = length l1 -> share b (o1 ++ o2) (l1 ++ l2) = share b o1 l1 ++ share b o2 l2.
  Proof.
    induction o1 as [|x o1 IH]; intros o2 [|y l1] l2 H; cbn in *; try discriminate; [reflexivity|]. rewrite IH by congruence. destruct (Bool.eqb x b); reflexivity.
  Qed.
  Lemma share_same {T} b : forall (l : list T), share b (repeat b (length l)) l = l.
  Proof. induction l as [|x l IH]; [reflexivity|]. cbn. rewrite IH. destruct b; reflexivity. Qed.
  Lemma share_other {T} b : forall (l : list T), share b (repeat (negb b) (length l)) l = [].
  Proof. induction l as [|x l IH]; [reflexivity|]. cbn. rewrite IH. destruct b; reflexivity. Qed.
  Lemma two_any : forall who stp stq s op oq s', two p q nx who fuel stp stq s = Done ((op, oq), s') ->
    exists rs own stp' stq', took nx fuel s rs s' /\ length own = length rs /\
      alone p stp (turns true who) (share true own rs) op stp' /\ alone q stq (turns false who) (share false own rs) oq stq'.
  Proof.
    induction who as [|b who IH]; intros stp stq s op oq s' H.
    - injection H as <- <- <-. exists [], [], stp, stq. split; [constructor|]. split; [reflexivity|]. split; apply alone_0.
    - destruct b; cbn [two] in H.
      + destruct (pipe_next p S0 nx fuel (pipe_put p S0 S0 stp s)) as [[r st]| |] eqn:E; cbn [obind] in H; try discriminate.
        destruct (two p q nx who fuel st stq (pipe_src p S0 st)) as [[[o1 o2] sx]| |] eqn:E2; cbn [obind] in H; try discriminate. injection H as <- <- <-.
        destruct (IH _ _ _ _ _ _ E2) as (rs & own & stp' & stq' & T & L & K1 & K2).
        destruct (alone_S p _ _ _ _ _ _ _ _ E K1) as (rs1 & T1 & K).
        exists (rs1 ++ rs), (repeat true (length rs1) ++ own), stp', stq'. split; [apply took_app; eauto|]. split; [rewrite !app_length, repeat_length; lia|].
        rewrite !share_app by apply repeat_length. rewrite (share_same true), (share_other false). split; [exact K|exact K2].
      + destruct (pipe_next q S0 nx fuel (pipe_put q S0 S0 stq s)) as [[r st]| |] eqn:E; cbn [obind] in H; try discriminate.
        destruct (two p q nx who fuel stp st (pipe_src q S0 st)) as [[[o1 o2] sx]| |] eqn:E2; cbn [obind] in H; try discriminate. injection H as <- <- <-.
        destruct (IH _ _ _ _ _ _ E2) as (rs & own & stp' & stq' & T & L & K1 & K2).
        destruct (alone_S q _ _ _ _ _ _ _ _ E K2) as (rs1 & T1 & K).
        exists (rs1 ++ rs), (repeat false (length rs1) ++ own), stp', stq'. split; [apply took_app; eauto|]. split; [rewrite !app_length, repeat_length; lia|].
        rewrite !share_app by apply repeat_length. rewrite (share_same false), (share_other true). split; [exact K1|exact K].
  Qed.
End Any.

(** ** Calls on a source that is known *)
Lemma ncalls_snoc {G B} (nx : stepfn G B) fuel : forall k st, ncalls nx fuel (Datatypes.S k) st = (let! (rs, st1) := ncalls nx fuel k st in let! (r, st2) := nx fuel st1 in Done (rs ++ [r], st2)).
Proof.
  induction k as [|k IH]; intros st.
  - cbn. destruct (nx fuel st) as [[r s1]| |]; reflexivity.
  - cbn [ncalls]. destruct (nx fuel st) as [[r s1]| |]; cbn [obind]; try reflexivity. specialize (IH s1). cbn [ncalls] in IH. rewrite IH.
    destruct (ncalls nx fuel k s1) as [[rs s2]| |]; cbn [obind]; try reflexivity. destruct (nx fuel s2) as [[r' s3]| |]; reflexivity.
Qed.
Lemma ncalls_app {G B} (nx : stepfn G B) fuel : forall j k st, ncalls nx fuel (j + k) st = (let! (rs, st1) := ncalls nx fuel j st in let! (rs', st2) := ncalls nx fuel k st1 in Done (rs ++ rs', st2)).
Proof.
  induction j as [|j IH]; intros k st; cbn [ncalls Nat.add].
  - cbn [obind]. destruct (ncalls nx fuel k st) as [[rs s1]| |]; reflexivity.
  - destruct (nx fuel st) as [[r s1]| |]; cbn [obind]; try reflexivity. rewrite IH. destruct (ncalls nx fuel j s1) as [[rs s2]| |]; cbn [obind]; try reflexivity.
    destruct (ncalls nx fuel k s2) as [[rs' s3]| |]; reflexivity.
Qed.
Definition okv {B} (v : B) : ret B := (v, None).
Lemma emits_ncalls {G B} (nx : stepfn G B) l : forall st st', emits nx st l st' -> forall k, k <= length l -> exists stk N, forall fuel, N <= fuel -> ncalls nx fuel k st = Done (map okv (firstn k l), stk).
Proof.
  induction l as [|v l IH]; intros st st' E k Hk.
  - assert (k = 0) by (cbn in Hk; lia). subst k. exists st, 0. reflexivity.
  - destruct k as [|k]; [exists st, 0; reflexivity|]. inversion E as [|? ? s1 ? ? R E1]; subst. destruct R as (N1 & R). destruct (IH _ _ E1 k) as (stk & N2 & F); [cbn in Hk; lia|].
    exists stk, (N1 + N2). intros fuel Hf. cbn [ncalls]. rewrite R by lia. cbn [obind]. rewrite F by lia. reflexivity.
Qed.
Lemma emits_ncalls_all {G B} (nx : stepfn G B) l : forall st st', emits nx st l st' -> exists N, forall fuel, N <= fuel -> ncalls nx fuel (length l) st = Done (map okv l, st').
Proof.
  induction l as [|v l IH]; intros st st' E.
  - inversion E; subst. exists 0. reflexivity.
  - inversion E as [|? ? s1 ? ? R E1]; subst. destruct R as (N1 & R). destruct (IH _ _ E1) as (N2 & F).
    exists (N1 + N2). intros fuel Hf. cbn [ncalls length]. rewrite R by lia. cbn [obind]. rewrite F by lia. reflexivity.
Qed.
Lemma stuck_ncalls {G B} (zb : Zero B) (nx : stepfn G B) e : forall k st, stuck nx st e -> exists stk N, forall fuel, N <= fuel -> ncalls nx fuel k st = Done (repeat (zv, Some e) k, stk).
Proof.
  induction k as [|k IH]; intros st St.
  - exists st, 0. reflexivity.
  - inversion St as [? ? s1 R St1]; subst. destruct R as (N1 & R). destruct (IH _ St1) as (stk & N2 & F).
    exists stk, (N1 + N2). intros fuel Hf. cbn [ncalls]. rewrite R by lia. cbn [obind]. rewrite F by lia. reflexivity.
Qed.
Lemma yields_ncalls {G B} (zb : Zero B) (nx : stepfn G B) st l e st' k : emits nx st l st' -> stuck nx st' e ->
  exists stk N, forall fuel, N <= fuel -> ncalls nx fuel k st = Done (answers zb (l, Some e) k, stk).
Proof.
  intros E St. unfold answers. cbn [fst snd]. rewrite firstn_map. destruct (Nat.le_gt_cases k (length l)) as [H | H].
  - destruct (emits_ncalls _ _ _ _ E k H) as (stk & N & F). exists stk, N. intros fuel Hf. rewrite (F fuel Hf). replace (k - length l) with 0 by lia. cbn [repeat]. rewrite app_nil_r. reflexivity.
  - destruct (emits_ncalls_all _ _ _ _ E) as (N1 & F1). destruct (stuck_ncalls zb nx e (k - length l) _ St) as (stk & N2 & F2). exists stk, (N1 + N2). intros fuel Hf.
    replace k with (length l + (k - length l)) at 1 by lia. rewrite ncalls_app, F1 by lia. cbn [obind]. rewrite F2 by lia. cbn [obind]. rewrite firstn_all2 by lia. reflexivity.
Qed.

Lemma skipn_nth {T} : forall (l : list T) i v, nth_error l i = Some v -> skipn i l = v :: skipn (Datatypes.S i) l.
Proof. induction l as [|x l IH]; intros [|m] v E; try discriminate; cbn in *; [injection E as ->; reflexivity|apply IH; exact E]. Qed.
Section Known.
  Context {A : Type} (za : Zero A) (e : err).
  (** the reference: a function that returns the values of [L] and then the error *)
  Definition script (L : list A) : stepfn nat A := fun _ i => match nth_error L i with Some v => Done ((v, None), Datatypes.S i) | None => Done ((zv, Some e), i) end.
  Definition rat (i : nat) (b : bool) : impl nat A := if b then dead i e else ofIter i.
  Definition tracks {X} (nx : stepfn X A) (at_ : nat -> bool -> X) (l : list A) (fuel : nat) : Prop :=
    (forall i v, nth_error l i = Some v -> nx fuel (at_ i false) = Done ((v, None), at_ (Datatypes.S i) false)) /\
    nx fuel (at_ (length l) false) = Done ((zv, Some e), at_ (length l) true) /\
    nx fuel (at_ (length l) true) = Done ((zv, Some e), at_ (length l) true).
  Lemma script_emits L : forall n, n <= length L -> emits (script L) (length L - n) (skipn (length L - n) L) (length L).
  Proof.
    induction n as [|n IH]; intros H.
    - rewrite Nat.sub_0_r, skipn_all. constructor.
    - destruct (nth_error L (length L - Datatypes.S n)) as [v|] eqn:E; [|apply nth_error_None in E; lia].
      assert (K : skipn (length L - Datatypes.S n) L = v :: skipn (length L - n) L).
      { replace (length L - n) with (Datatypes.S (length L - Datatypes.S n)) by lia. revert E. generalize (length L - Datatypes.S n). clear. induction L as [|x L IH]; intros [|m] E; try discriminate; cbn in *.
        - injection E as ->. reflexivity.
        - apply IH. exact E. }
      rewrite K. econstructor; [|apply IH; lia]. exists 0. intros m _. unfold script. rewrite E. f_equal. f_equal. lia.
  Qed.
  Lemma script_gives L : gives (script L) 0 (L, Some e).
  Proof.
    exists (length L). split.
    - pose proof (script_emits L (length L) (le_n _)) as H. rewrite Nat.sub_diag in H. exact H.
    - cbn. intros e' [= <-]. exists (length L), zv, 0. intros m _. unfold script. assert (E : nth_error L (length L) = None) by (apply nth_error_None; lia). rewrite E. reflexivity.
  Qed.
  Lemma script_tracks L fuel : tracks (next (script L)) rat L fuel.
  Proof.
    unfold tracks, rat, next, ofIter, dead. cbn [buffer length Nat.sub nth_error fn_live src last_err]. split; [|split].
    - intros i v E. unfold script. rewrite E. reflexivity.
    - unfold script. assert (E : nth_error L (length L) = None) by (apply nth_error_None; lia). rewrite E. reflexivity.
    - reflexivity.
  Qed.
  Definition ok_ends (a : list A) (j : nat) : list (ret A) := map okv a ++ repeat (zv, Some e) j.
  Lemma took_char {X} (nx : stepfn X A) at_ l fuel : tracks nx at_ l fuel -> forall rs i b x, i <= length l -> (b = true -> i = length l) -> took nx fuel (at_ i b) rs x ->
    exists a j, rs = ok_ends a j /\ firstn (length a) (skipn i l) = a /\ (0 < j -> i + length a = length l) /\ x = at_ (i + length a) (b || (0 <? j)).
  Proof.
    intros (T1 & T2 & T3). induction rs as [|r rs IH]; intros i b x Hi Hb T.
    - inversion T; subst. exists [], 0. split; [reflexivity|]. split; [reflexivity|]. split; [lia|]. cbn. rewrite Nat.add_0_r, Bool.orb_false_r. reflexivity.
    - inversion T as [|? ? s1 ? ? E TT]; subst.
      assert (END : i = length l -> exists a j, r :: rs = ok_ends a j /\ firstn (length a) (skipn i l) = a /\ (0 < j -> i + length a = length l) /\ x = at_ (i + length a) (b || (0 <? j))).
      { intros ->. assert (K : nx fuel (at_ (length l) b) = Done ((zv, Some e), at_ (length l) true)) by (destruct b; [exact T3|exact T2]). rewrite K in E. injection E as <- <-.
        destruct (IH _ _ _ (le_n _) (fun _ => eq_refl) TT) as (a & j & -> & Ea & Ej & ->). rewrite skipn_all, firstn_nil in Ea. subst a. exists [], (Datatypes.S j). cbn. rewrite Nat.add_0_r.
        split; [reflexivity|]. split; [reflexivity|]. split; [reflexivity|]. rewrite Bool.orb_true_r. reflexivity. }
      destruct b; [apply END, Hb; reflexivity|]. destruct (nth_error l i) as [v|] eqn:EV; [|apply END; apply nth_error_None in EV; lia].
      rewrite (T1 _ _ EV) in E. injection E as <- <-. assert (Hlt : i < length l) by (apply nth_error_Some; congruence).
      destruct (IH _ false _ Hlt (fun H => False_ind _ (Bool.diff_false_true H)) TT) as (a & j & -> & Ea & Ej & ->).
      exists (v :: a), j. split; [reflexivity|]. cbn [length]. split; [|split; [intros Hj; specialize (Ej Hj); lia|f_equal; lia]].
      assert (K : skipn i l = v :: skipn (Datatypes.S i) l). { apply skipn_nth. exact EV. }
      rewrite K. cbn [firstn]. rewrite Ea. reflexivity.
  Qed.
  Lemma took_ends {X} (nx : stepfn X A) at_ l fuel : tracks nx at_ l fuel -> forall j b, took nx fuel (at_ (length l) b) (repeat (zv, Some e) j) (at_ (length l) (b || (0 <? j))).
  Proof.
    intros (T1 & T2 & T3). induction j as [|j IH]; intros b.
    - cbn. rewrite Bool.orb_false_r. constructor.
    - cbn [repeat]. apply took_cons with (s1 := at_ (length l) true); [destruct b; [exact T3|exact T2]|]. cbn. specialize (IH true). cbn in IH. rewrite Bool.orb_true_r. exact IH.
  Qed.
  Lemma took_make {X} (nx : stepfn X A) at_ l fuel : tracks nx at_ l fuel -> forall a i b j, i <= length l -> (b = true -> i = length l) -> firstn (length a) (skipn i l) = a -> (0 < j -> i + length a = length l) ->
    took nx fuel (at_ i b) (ok_ends a j) (at_ (i + length a) (b || (0 <? j))).
  Proof.
    intros TR. induction a as [|v a IH]; intros i b j Hi Hb Ea Ej.
    - cbn [length] in *. rewrite Nat.add_0_r in *. unfold ok_ends. cbn [map app]. destruct j as [|j]; [cbn; rewrite Bool.orb_false_r; constructor|]. rewrite Ej by lia. apply took_ends. exact TR.
    - destruct (nth_error l i) as [w|] eqn:EV.
      2: { apply nth_error_None in EV. rewrite skipn_all2 in Ea by lia. cbn in Ea. discriminate. }
      assert (Hlt : i < length l) by (apply nth_error_Some; congruence). assert (b = false) by (destruct b; [specialize (Hb eq_refl); lia|reflexivity]). subst b.
      assert (K : skipn i l = w :: skipn (Datatypes.S i) l). { apply skipn_nth. exact EV. }
      rewrite K in Ea. cbn [firstn length] in Ea. injection Ea as -> Ea. unfold ok_ends. cbn [map app]. econstructor; [exact (proj1 TR _ _ EV)|].
      cbn [length]. replace (i + Datatypes.S (length a)) with (Datatypes.S i + length a) by lia. apply IH; [lia|discriminate|exact Ea|intros H; specialize (Ej H); cbn [length] in Ej; lia].
  Qed.

  (** existence of the next answers of a pipeline on the reference *)
  Lemma ref_calls {B} (p : pipe A B) L k : exists st N, forall fuel, N <= fuel -> ncalls (pipe_next p _ (next (script L))) fuel k (pipe_init p _ (ofIter 0)) = Done (answers (pipe_zero p za) (meaning p (L, Some e)) k, st).
  Proof.
    destruct (meaning_ends p (L, Some e) e eq_refl) as (e' & He).
    assert (V : exists st, emits (it_next (apply_pipe p (source za (script L) 0))) (it_init (apply_pipe p (source za (script L) 0))) (fst (meaning p (L, Some e))) st /\
      stuck (H := pipe_zero p za) (it_next (apply_pipe p (source za (script L) 0))) st e').
    { destruct (pipe_reads p (script L) 0 _ (source za (script L) 0) _ (fun k => k) (source_reads za (script L) 0 _ (script_gives L))) as [(st & E & F) _].
      exists st. split; [exact E|]. destruct (F e' He) as [st' F']. destruct (pipe_settled p za (script L) 0 _ _ _ _ E F') as [R R']. econstructor; [exact R|]. apply stuck_fixed. exact R'. }
    rewrite pipe_same in V. cbn [it_next it_init source] in V. destruct V as (st & E & St).
    destruct (meaning p (L, Some e)) as [out o]. cbn in He. subst o. exact (yields_ncalls _ _ _ _ _ _ k E St).
  Qed.

  Section OnePipe.
    Context {B X : Type} (p : pipe A B).
    Definition invp (k : nat) (op : list (ret B)) (lp : list A) (endp : bool) (stp : pipe_state p X) : Prop :=
      forall rest, (endp = true -> rest = []) -> exists N, forall fuel, N <= fuel ->
        ncalls (pipe_next p _ (next (script (lp ++ rest)))) fuel k (pipe_init p _ (ofIter 0)) = Done (op, pipe_put p _ _ stp (rat (length lp) endp)).
    Lemma invp_0 (x : X) : invp 0 [] [] false (pipe_init p _ x).
    Proof. intros rest _. exists 0. intros fuel _. cbn [ncalls]. rewrite pipe_put_init. reflexivity. Qed.
    Lemma invp_out k op lp endp stp : invp k op lp endp stp -> op = answers (pipe_zero p za) (meaning p (lp, Some e)) k.
    Proof.
      intros I. destruct (I [] (fun _ => eq_refl)) as (N1 & F1). rewrite app_nil_r in F1. destruct (ref_calls p lp k) as (st & N2 & F2).
      specialize (F1 (N1 + N2) ltac:(lia)). rewrite F2 in F1 by lia. injection F1 as <- _. reflexivity.
    Qed.
    Lemma rat_inj i b i' b' : rat i b = rat i' b' -> i = i' /\ b = b'.
    Proof. unfold rat, dead, ofIter. destruct b, b'; intros H; injection H; intros; subst; try discriminate; auto. Qed.
    Variables (nx : stepfn X A) (at_ : nat -> bool -> X) (l : list A).
    Hypothesis TR : exists N, forall fuel, N <= fuel -> tracks nx at_ l fuel.
    Lemma invp_step k op lp endp stp i b : invp k op lp endp stp -> i <= length l -> (b = true -> i = length l) -> (endp = true -> b = true) ->
      exists r a je stp', (exists N, forall fuel, N <= fuel -> pipe_next p X nx fuel (pipe_put p _ _ stp (at_ i b)) = Done (r, stp')) /\
        pipe_src p _ stp' = at_ (i + length a) (b || je) /\ firstn (length a) (skipn i l) = a /\ (je = true -> i + length a = length l) /\
        invp (Datatypes.S k) (op ++ [r]) (lp ++ a) (endp || je) stp'.
    Proof.
      intros I Hi Hb He. destruct TR as (N0 & TR0).
      assert (HE : endp = true -> skipn i l = []) by (intros H; rewrite (Hb (He H)); apply skipn_all).
      set (rest := skipn i l) in *. destruct (I rest HE) as (N1 & F1). destruct (ref_calls p (lp ++ rest) (Datatypes.S k)) as (R' & N2 & F2).
      set (M := N0 + N1 + N2).
      assert (C : exists r, forall fuel, M <= fuel -> pipe_next p _ (next (script (lp ++ rest))) fuel (pipe_put p _ _ stp (rat (length lp) endp)) = Done (r, R') /\ answers (pipe_zero p za) (meaning p (lp ++ rest, Some e)) (Datatypes.S k) = op ++ [r]).
      { assert (C0 : forall fuel, M <= fuel -> exists r, pipe_next p _ (next (script (lp ++ rest))) fuel (pipe_put p _ _ stp (rat (length lp) endp)) = Done (r, R') /\ answers (pipe_zero p za) (meaning p (lp ++ rest, Some e)) (Datatypes.S k) = op ++ [r]).
        { intros fuel Hf. pose proof (F2 fuel ltac:(lia)) as H. rewrite ncalls_snoc, F1 in H by lia. cbn [obind] in H.
          destruct (pipe_next p _ (next (script (lp ++ rest))) fuel (pipe_put p _ _ stp (rat (length lp) endp))) as [[r x]| |]; cbn [obind] in H; try discriminate. injection H as E1 E2. subst x. exists r. split; [reflexivity|]. symmetry. exact E1. }
        destruct (C0 M (le_n _)) as (r & _ & E). exists r. intros fuel Hf. destruct (C0 fuel Hf) as (r2 & G1 & G2). rewrite E in G2. apply app_inj_tail in G2. destruct G2 as [_ <-]. auto. }
      destruct C as (r & C).
      assert (HL : length lp <= length (lp ++ rest)) by (rewrite app_length; lia).
      assert (HB : endp = true -> length lp = length (lp ++ rest)) by (intros H; rewrite (HE H), app_nil_r; reflexivity).
      (* what one call takes from the reference *)
      assert (P : forall fuel, M <= fuel -> exists a j, firstn (length a) rest = a /\ (0 < j -> length a = length rest) /\ pipe_src p _ R' = rat (length lp + length a) (endp || (0 <? j)) /\
        forall S2 (nx2 : stepfn S2 A) s2 s2', took nx2 fuel s2 (ok_ends a j) s2' -> pipe_next p S2 nx2 fuel (pipe_put p _ _ stp s2) = Done (r, pipe_put p _ _ R' s2')).
      { intros fuel Hf. destruct (C fuel Hf) as (G1 & _). destruct (pipe_track p _ _ _ _ _ _ G1) as (rs & T & K). rewrite pipe_src_put in T.
        destruct (took_char _ _ _ _ (script_tracks (lp ++ rest) fuel) rs _ _ _ HL HB T) as (a & j & -> & Ea & Ej & Ex).
        rewrite skipn_app, skipn_all, Nat.sub_diag in Ea. cbn [skipn app] in Ea. exists a, j. split; [exact Ea|]. split; [intros H; specialize (Ej H); rewrite app_length in Ej; lia|]. split; [exact Ex|].
        intros S2 nx2 s2 s2' T2. specialize (K S2 nx2 s2 s2' T2). rewrite pipe_put_put in K. exact K. }
      destruct (P M (le_n _)) as (a & j0 & Ea & Ej & Ex & _).
      assert (Q : forall fuel, M <= fuel -> exists j, (0 < j -> length a = length rest) /\ (endp || (0 <? j)) = (endp || (0 <? j0)) /\
        forall S2 (nx2 : stepfn S2 A) s2 s2', took nx2 fuel s2 (ok_ends a j) s2' -> pipe_next p S2 nx2 fuel (pipe_put p _ _ stp s2) = Done (r, pipe_put p _ _ R' s2')).
      { intros fuel Hf. destruct (P fuel Hf) as (a' & j & Ea' & Ej' & Ex' & K). rewrite Ex in Ex'. apply rat_inj in Ex'. destruct Ex' as [E1 E2].
        assert (E3 : length a = length a') by lia. assert (a' = a) by (rewrite <- Ea', <- Ea, E3; reflexivity). subst a'. exists j. auto. }
      exists r, a, (0 <? j0), (pipe_put p _ _ R' (at_ (i + length a) (b || (0 <? j0)))).
      assert (HR : length rest = length l - i) by (subst rest; apply skipn_length).
      assert (HA : length a <= length rest) by (rewrite <- Ea, firstn_length; lia).
      split; [|split; [apply pipe_src_put|split; [exact Ea|split; [intros H; apply Nat.ltb_lt in H; specialize (Ej H); lia|]]]].
      - exists M. intros fuel Hf. destruct (Q fuel Hf) as (j & Hj & Hje & K). apply K.
        assert (BJ : (b || (0 <? j0)) = (b || (0 <? j))) by (destruct b; [reflexivity|]; destruct endp; [specialize (He eq_refl); discriminate|symmetry; exact Hje]).
        rewrite BJ. apply (took_make nx at_ l fuel); [apply TR0; lia|exact Hi|exact Hb|exact Ea|intros H; specialize (Hj H); lia].
      - intros rest' Hrest.
        assert (HE' : endp = true -> a ++ rest' = []).
        { intros H. rewrite (HE H) in Ea. rewrite firstn_nil in Ea. rewrite <- Ea. cbn. apply Hrest. rewrite H. reflexivity. }
        destruct (I (a ++ rest') HE') as (N3 & F3). exists (M + N3). intros fuel Hf. rewrite <- app_assoc. rewrite ncalls_snoc, F3 by lia. cbn [obind].
        destruct (Q fuel ltac:(lia)) as (j & Hj & Hje & K).
        assert (T : took (next (script (lp ++ a ++ rest'))) fuel (rat (length lp) endp) (ok_ends a j) (rat (length lp + length a) (endp || (0 <? j)))).
        { apply (took_make _ rat _ fuel (script_tracks _ fuel)).
          - rewrite app_length. lia.
          - intros H. rewrite (HE' H), app_nil_r. reflexivity.
          - rewrite skipn_app, skipn_all, Nat.sub_diag. cbn [skipn app]. rewrite firstn_app, firstn_all, Nat.sub_diag. cbn. apply app_nil_r.
          - intros H. rewrite !app_length. assert (rest' = []). { apply Hrest. rewrite <- Hje. destruct j; [lia|]. apply Bool.orb_true_r. } subst rest'. cbn. lia. }
        rewrite (K _ _ _ _ T). cbn [obind]. rewrite pipe_put_put, app_length, Hje. reflexivity.
    Qed.
  End OnePipe.
  Section TwoPipes.
    Context {B C X : Type} (p : pipe A B) (q : pipe A C) (nx : stepfn X A) (at_ : nat -> bool -> X) (l : list A).
    Hypothesis TR : exists N, forall fuel, N <= fuel -> tracks nx at_ l fuel.
    Lemma take_own b (a : list A) i : firstn (length a) (skipn i l) = a -> i <= length l -> forall own,
      share b (repeat b (length a) ++ own) (skipn i l) = a ++ share b own (skipn (i + length a) l) /\ share (negb b) (repeat b (length a) ++ own) (skipn i l) = share (negb b) own (skipn (i + length a) l).
    Proof.
      intros Ea Hi own. assert (E : skipn i l = a ++ skipn (i + length a) l).
      { rewrite <- (firstn_skipn (length a) (skipn i l)) at 1. f_equal; [exact Ea|]. rewrite SliceMemProofs.skipn_skipn. f_equal; lia. }
      rewrite E. rewrite !share_app by apply repeat_length. rewrite share_same. split; [reflexivity|]. pose proof (share_other (negb b) a) as H. rewrite Bool.negb_involutive in H. rewrite H. reflexivity.
    Qed.
    Lemma two_known : forall who kp op lp endp stp kq oq lq endq stq i b, invp p kp op lp endp stp -> invp q kq oq lq endq stq ->
      i <= length l -> (b = true -> i = length l) -> (endp = true -> b = true) -> (endq = true -> b = true) ->
      exists own op' oq' b', length own <= length l - i /\ (b' = true -> i + length own = length l) /\
        op ++ op' = answers (pipe_zero p za) (meaning p (lp ++ share true own (skipn i l), Some e)) (kp + turns true who) /\
        oq ++ oq' = answers (pipe_zero q za) (meaning q (lq ++ share false own (skipn i l), Some e)) (kq + turns false who) /\
        exists N, forall fuel, N <= fuel -> two p q nx who fuel stp stq (at_ i b) = Done ((op', oq'), at_ (i + length own) b').
    Proof.
      induction who as [|w who IH]; intros kp op lp endp stp kq oq lq endq stq i b Ip Iq Hi Hb Hep Heq.
      - exists [], [], [], b. cbn [length turns filter share]. rewrite !app_nil_r, !Nat.add_0_r. split; [lia|]. split; [exact Hb|]. split; [exact (invp_out p _ _ _ _ _ Ip)|]. split; [exact (invp_out q _ _ _ _ _ Iq)|].
        exists 0. reflexivity.
      - destruct w.
        + destruct (invp_step p nx at_ l TR _ _ _ _ _ i b Ip Hi Hb Hep) as (r & a & je & stp' & (N1 & F1) & Es & Ea & Ej & Ip').
          assert (HA : length a <= length l - i) by (rewrite <- Ea, firstn_length, skipn_length; lia).
          destruct (IH _ _ _ _ _ _ _ _ _ _ (i + length a) (b || je) Ip' Iq) as (own & op' & oq' & b' & L1 & L2 & E1 & E2 & N2 & F2).
          { lia. } { intros H. apply Bool.orb_true_iff in H. destruct H as [H|H]; [specialize (Hb H); lia|exact (Ej H)]. } { intros H. apply Bool.orb_true_iff in H. apply Bool.orb_true_iff. destruct H as [H|H]; [left; exact (Hep H)|right; exact H]. } { intros H. rewrite (Heq H). reflexivity. }
          destruct (take_own true a i Ea Hi own) as (K1 & K2). cbn [negb] in K2.
          exists (repeat true (length a) ++ own), (r :: op'), oq', b'. rewrite app_length, repeat_length, K1, K2. split; [lia|]. split; [intros H; specialize (L2 H); lia|].
          split. { rewrite <- app_assoc in E1. cbn [app] in E1. rewrite E1, <- app_assoc. f_equal. change (turns true (true :: who)) with (Datatypes.S (turns true who)). lia. }
          split; [exact E2|]. exists (N1 + N2). intros fuel Hf. cbn [two]. rewrite F1 by lia. cbn [obind]. rewrite Es, F2 by lia. cbn [obind fst snd]. rewrite Nat.add_assoc. reflexivity.
        + destruct (invp_step q nx at_ l TR _ _ _ _ _ i b Iq Hi Hb Heq) as (r & a & je & stp' & (N1 & F1) & Es & Ea & Ej & Iq').
          assert (HA : length a <= length l - i) by (rewrite <- Ea, firstn_length, skipn_length; lia).
          destruct (IH _ _ _ _ _ _ _ _ _ _ (i + length a) (b || je) Ip Iq') as (own & op' & oq' & b' & L1 & L2 & E1 & E2 & N2 & F2).
          { lia. } { intros H. apply Bool.orb_true_iff in H. destruct H as [H|H]; [specialize (Hb H); lia|exact (Ej H)]. } { intros H. rewrite (Hep H). reflexivity. } { intros H. apply Bool.orb_true_iff in H. apply Bool.orb_true_iff. destruct H as [H|H]; [left; exact (Heq H)|right; exact H]. }
          destruct (take_own false a i Ea Hi own) as (K1 & K2). cbn [negb] in K2.
          exists (repeat false (length a) ++ own), op', (r :: oq'), b'. rewrite app_length, repeat_length, K1, K2. split; [lia|]. split; [intros H; specialize (L2 H); lia|].
          split; [exact E1|]. split.
          { rewrite <- app_assoc in E2. cbn [app] in E2. rewrite E2, <- app_assoc. f_equal. change (turns false (false :: who)) with (Datatypes.S (turns false who)). lia. }
          exists (N1 + N2). intros fuel Hf. cbn [two]. rewrite F1 by lia. cbn [obind]. rewrite Es, F2 by lia. cbn [obind fst snd]. rewrite Nat.add_assoc. reflexivity.
    Qed.
  End TwoPipes.
End Known.

(** ** An iterator made by iter.OfIter *)
Lemma positions {S0 A} (f : stepfn S0 A) e : forall l s, gives f s (l, Some e) -> exists N pos sE, pos 0 = s /\ forall fuel, N <= fuel ->
  (forall i v, nth_error l i = Some v -> f fuel (pos i) = Done ((v, None), pos (Datatypes.S i))) /\ exists v, f fuel (pos (length l)) = Done ((v, Some e), sE).
Proof.
  induction l as [|x l IH]; intros s G.
  - destruct (gives_nil_err _ _ _ G) as (sE & v & N & R). exists N, (fun _ => s), sE. split; [reflexivity|]. intros fuel Hf. split; [intros [|i] w H; discriminate|]. exists v. apply R. exact Hf.
  - destruct (gives_cons _ _ _ _ _ G) as (s1 & (N1 & R) & G1). destruct (IH _ G1) as (N2 & pos & sE & P0 & P). exists (N1 + N2), (fun i => match i with 0 => s | Datatypes.S i' => pos i' end), sE.
    split; [reflexivity|]. intros fuel Hf. destruct (P fuel ltac:(lia)) as (P1 & P2). split; [|exact P2]. intros [|i] v H; cbn in H.
    + injection H as <-. rewrite P0. apply R. lia.
    + apply P1. exact H.
Qed.
Lemma ofIter_tracks {S0 A} (za : Zero A) (f : stepfn S0 A) s l e : gives f s (l, Some e) ->
  exists at_ : nat -> bool -> impl S0 A, at_ 0 false = ofIter s /\ (exists N, forall fuel, N <= fuel -> tracks za e (next f) at_ l fuel) /\ (forall i b, fn_live (at_ i b) = negb b).
Proof.
  intros G. destruct (positions f e l s G) as (N & pos & sE & P0 & P). exists (fun (i : nat) (b : bool) => if b then dead sE e else ofIter (pos i)). split; [rewrite P0; reflexivity|]. split; [|intros i []; reflexivity].
  exists N. intros fuel Hf. destruct (P fuel Hf) as (P1 & v & P2). unfold tracks, next, ofIter, dead. cbn [buffer length Nat.sub nth_error fn_live src last_err]. split; [|split].
  - intros i w E. rewrite (P1 _ _ E). reflexivity.
  - rewrite P2. reflexivity.
  - reflexivity.
Qed.
Lemma tracks_gives {X A} (za : Zero A) e (nx : stepfn X A) at_ (l : list A) : (exists N, forall fuel, N <= fuel -> tracks za e nx at_ l fuel) ->
  forall i b, i <= length l -> (b = true -> i = length l) -> gives nx (at_ i b) (skipn i l, Some e).
Proof.
  intros (N & T). assert (K : forall n i, n = length l - i -> i <= length l -> gives nx (at_ i false) (skipn i l, Some e)).
  { induction n as [|n IH]; intros i Hn Hi.
    - assert (i = length l) by lia. subst i. rewrite skipn_all. exists (at_ (length l) false). split; [constructor|]. intros e' [= <-]. exists (at_ (length l) true), zv, N. intros m Hm. apply T. exact Hm.
    - destruct (nth_error l i) as [v|] eqn:E; [|apply nth_error_None in E; lia]. rewrite (skipn_nth _ _ _ E). apply gives_intro with (at_ (Datatypes.S i) false); [exists N; intros m Hm; apply T; assumption|apply IH; lia]. }
  intros i b Hi Hb. destruct b; [|apply (K (length l - i)); auto]. rewrite (Hb eq_refl), skipn_all. exists (at_ (length l) true). split; [constructor|]. intros e' [= <-]. exists (at_ (length l) true), zv, N. intros m Hm. apply T. exact Hm.
Qed.
Lemma two_shared {S0 A B C} (za : Zero A) (p : pipe A B) (q : pipe A C) (f : stepfn S0 A) s l e who : gives f s (l, Some e) ->
  exists own s', length own <= length l /\ gives (next f) s' (skipn (length own) l, Some e) /\
    exists N, forall fuel, N <= fuel -> two p q (next f) who fuel (pipe_init p _ (ofIter s)) (pipe_init q _ (ofIter s)) (ofIter s) =
      Done ((answers (pipe_zero p za) (meaning p (share true own l, Some e)) (turns true who), answers (pipe_zero q za) (meaning q (share false own l, Some e)) (turns false who)), s').
Proof.
  intros G. destruct (ofIter_tracks za f s l e G) as (at_ & A0 & TR & _).
  destruct (two_known za e p q (next f) at_ l TR who 0 [] [] false (pipe_init p _ (ofIter s)) 0 [] [] false (pipe_init q _ (ofIter s)) 0 false) as (own & op & oq & b & L & Lb & E1 & E2 & N & F);
    [apply invp_0|apply invp_0|lia|discriminate|discriminate|discriminate|].
  cbn [app Nat.add skipn] in *. exists own, (at_ (length own) b). split; [lia|]. split; [apply (tracks_gives za e _ _ _ TR); [lia|exact Lb]|]. exists N. intros fuel Hf. rewrite <- A0 at 3. rewrite F by exact Hf. rewrite E1, E2. reflexivity.
Qed.

(** ** One after the other *)
Lemma pulls_rest {S T} (f : stepfn S T) o : forall n l s s', pulls f s (l, o) n s' -> gives f s (l, o) -> n <= length l -> gives f s' (skipn n l, o).
Proof.
  induction n as [|n IH]; intros l s s' P G H; [inversion P; subst; exact G|]. destruct l as [|v l]; [cbn in H; lia|]. inversion P as [|? ? s1 ? ? ? ? R P1|]; subst.
  destruct (gives_cons _ _ _ _ _ G) as (s1' & R' & G'). destruct (returns_det _ _ _ _ _ _ R R') as [_ ->]. cbn [skipn]. eapply IH; eauto. cbn in H. lia.
Qed.
Lemma pulls_prefix {S T} (f : stepfn S T) o : forall n l s s', pulls f s (l, o) n s' -> n <= length l -> emits f s (firstn n l) s'.
Proof.
  induction n as [|n IH]; intros l s s' P H; [inversion P; subst; constructor|]. destruct l as [|v l]; [cbn in H; lia|]. inversion P as [|? ? s1 ? ? ? ? R P1|]; subst.
  cbn [firstn]. econstructor; [exact R|]. apply IH; [exact P1|cbn in H; lia].
Qed.
Lemma pipe_sequential {X A B} (p : pipe A B) (nx : stepfn X A) s tr k : gives nx s tr -> covers (meaning p tr) k ->
  exists st, pulls (pipe_next p X nx) (pipe_init p X s) (meaning p tr) k st /\ pulls nx s tr (demand p tr k) (pipe_src p X st) /\
    (demand p tr k <= length (fst tr) -> gives nx (pipe_src p X st) (left_over (demand p tr k) tr)).
Proof.
  intros G C. assert (R : reads (mkIterator X nx s (fun x => x)) nx s tr tr (fun k => k)).
  { split; [exact G|]. intros j Cj. cbn. destruct tr as [l o]. destruct (gives_pulls _ _ _ _ _ G Cj) as (s' & P). exists s'. auto. }
  destruct (pipe_reads p nx s tr _ _ _ R) as (_ & H). destruct (H k C) as (st & P1 & P2). revert st P1 P2. rewrite pipe_same. cbn. intros st P1 P2. exists st. split; [exact P1|]. split; [exact P2|].
  intros Hd. destruct tr as [l o]. unfold left_over. cbn [fst snd] in *. exact (pulls_rest _ _ _ _ _ _ P2 G Hd).
Qed.
Section Batches.
  Context {S0 A : Type} (za : Zero A) (f : stepfn S0 A).
  Lemma batch_one n s l o e : gives (next f) s (l, o) -> (n <= length l \/ o = Some e) -> exists st N, 
    pulls (next f) s (l, o) (if n <=? length l then n else Datatypes.S (length l)) (pipe_src (batch_pipe n) _ st) /\
    forall fuel, N <= fuel -> pipe_next (batch_pipe n) _ (next f) fuel (pipe_init (batch_pipe n) _ s) =
      Done (if n <=? length l then (firstn n l, None) else match e with EOI => (l, None) | _ => (@zv _ (pipe_zero (batch_pipe n) za), Some e) end, st).
  Proof.
    intros G Ho.
    assert (ME : meaning (batch_pipe n) (l, o) = if n <=? length l then ([firstn n l], Some EOI) else reduced o [l]).
    { cbn. destruct (n <=? length l); reflexivity. }
    assert (DE : forall k, demand (batch_pipe n) (l, o) (Datatypes.S k) = if n <=? length l then n else Datatypes.S (length l)).
    { intros k. cbn -[Nat.min]. destruct (Nat.leb_spec n (length l)); cbn -[Nat.min fst]; cbn [fst]; rewrite ?firstn_length; lia. }
    assert (C1 : covers (meaning (batch_pipe n) (l, o)) 1).
    { rewrite ME. destruct (Nat.leb_spec n (length l)); [left; cbn; lia|]. destruct Ho as [Ho|Ho]; [lia|]. subst o. unfold covers. destruct e; cbn; (left; lia) || (right; split; [reflexivity|discriminate]). }
    destruct (pipe_sequential (batch_pipe n) (next f) s (l, o) 1 G C1) as (st & P & Q & _). rewrite DE in Q. exists st.
    rewrite ME in P. destruct (Nat.leb_spec n (length l)).
    - inversion P as [|? ? s1 ? ? ? ? R P1|]; subst. inversion P1; subst. destruct R as (N & R). exists N. split; [exact Q|]. exact R.
    - destruct Ho as [Ho|Ho]; [lia|]. subst o. destruct e; cbn [reduced] in P; inversion P as [|? ? s1 ? ? ? ? R P1|? ? ? R]; subst; try (inversion P1; subst).
      all: try (destruct R as (N & R); exists N; split; [exact Q|]; exact R).
      all: destruct R as (v & N & R); exists N; split; [exact Q|]; intros fuel Hf; pose proof (R fuel Hf) as R1;
        rewrite R1; f_equal; f_equal; f_equal; clear - R1; unfold batch_pipe in *; cbn [pipe_next pipe_init pipe_state] in R1; unfold next at 1 in R1; cbn in R1;
        match type of R1 with obind ?x _ = _ => destruct x as [[[? [?|]] ?]| |]; cbn in R1; try discriminate; injection R1 as <- _ _; reflexivity end.
  Qed.
  Lemma batches_eoi n : forall k s l, gives (next f) s (l, Some EOI) -> (forall s1 s2, emits (next f) s l s1 -> fails (next f) s1 EOI s2 -> stuck (next f) s2 EOI) ->
    exists s' N, forall fuel, N <= fuel -> batches n (next f) k fuel s = Done (pieces n k l, None, s').
  Proof.
    induction k as [|k IH]; intros s l G ST; [exists s, 0; reflexivity|].
    destruct (batch_one n s l (Some EOI) EOI G (or_intror eq_refl)) as (st & N1 & Q & F). destruct (Nat.leb_spec n (length l)) as [H|H].
    - assert (G2 : gives (next f) (pipe_src (batch_pipe n) _ st) (skipn n l, Some EOI)) by exact (pulls_rest _ _ _ _ _ _ Q G H).
      destruct (IH _ _ G2) as (s' & N2 & F2).
      { intros s1 s2 E1 E2. apply (ST s1 s2); [|exact E2]. rewrite <- (firstn_skipn n l). eapply emits_app; [|exact E1].
        exact (pulls_prefix _ _ _ _ _ _ Q H). }
      exists s', (N1 + N2). intros fuel Hf. cbn [batches]. rewrite F by lia. cbn [obind]. rewrite F2 by lia. cbn [obind fst snd pieces]. reflexivity.
    - destruct (pulls_split _ _ _ _ _ Q) as (s1 & E1 & E2). pose proof (ST _ _ E1 E2) as SK.
      destruct (IH (pipe_src (batch_pipe n) _ st) []) as (s' & N2 & F2).
      { inversion SK as [? ? s3 R SK2]; subst. eexists. split; [constructor|]. intros e' [= <-]. eexists. eexists. exact R. }
      { intros a b Ea Eb. inversion Ea; subst. inversion SK as [? ? s3 R SK2]; subst. destruct Eb as (v & Rb). destruct (returns_det _ _ _ _ _ _ R Rb) as [_ <-]. exact SK2. }
      exists s', (N1 + N2). intros fuel Hf. cbn [batches]. rewrite F by lia. cbn [obind]. rewrite F2 by lia. cbn [obind fst snd pieces].
      rewrite (firstn_all2 (n := n) l) by lia. rewrite (skipn_all2 (n := n) l) by lia. reflexivity.
  Qed.
  Lemma batches_prefix n : forall k s l o, gives (next f) s (l, o) -> k * n <= length l -> exists s' N, emits (next f) s (firstn (k * n) l) s' /\ gives (next f) s' (skipn (k * n) l, o) /\
    forall fuel, N <= fuel -> batches n (next f) k fuel s = Done (pieces n k l, None, s').
  Proof.
    induction k as [|k IH]; intros s l o G H; [exists s, 0; split; [constructor|split; [exact G|reflexivity]]|]. cbn [Nat.mul] in *.
    destruct (batch_one n s l o EOI G) as (st & N1 & Q & F); [left; lia|]. destruct (Nat.leb_spec n (length l)) as [H1|H1]; [|lia].
    assert (G2 : gives (next f) (pipe_src (batch_pipe n) _ st) (skipn n l, o)) by exact (pulls_rest _ _ _ _ _ _ Q G H1).
    destruct (IH _ _ _ G2) as (s' & N2 & E3 & G3 & F2); [rewrite skipn_length; lia|]. exists s', (N1 + N2). split; [|split].
    - replace (firstn (n + k * n) l) with (firstn n l ++ firstn (k * n) (skipn n l)). { eapply emits_app; [exact (pulls_prefix _ _ _ _ _ _ Q H1)|exact E3]. } rewrite <- (firstn_skipn n l) at 3. rewrite firstn_app, firstn_firstn, firstn_length. f_equal; f_equal; lia.
    - rewrite SliceMemProofs.skipn_skipn in G3. replace (n + k * n) with (k * n + n) by lia. exact G3 || (replace (k * n + n) with (n + k * n) by lia; exact G3).
    - intros fuel Hf. cbn [batches]. rewrite F by lia. cbn [obind]. rewrite F2 by lia. reflexivity.
  Qed.
  Lemma batches_split n : forall j k fuel (s : impl S0 A) bs s1, batches n (next f) j fuel s = Done (bs, None, s1) -> batches n (next f) (j + k) fuel s =
    (let! (r, s') := batches n (next f) k fuel s1 in Done ((bs ++ fst r, snd r), s')).
  Proof.
    induction j as [|j IH]; intros k fuel s bs s1 H; cbn [batches Nat.add] in *.
    - injection H as <- <-. destruct (batches n (next f) k fuel s) as [[[a b] c]| |]; reflexivity.
    - destruct (pipe_next (batch_pipe n) _ (next f) fuel (pipe_init (batch_pipe n) _ s)) as [[[b [e|]] st]| |]; cbn [obind] in *; try discriminate.
      destruct (batches n (next f) j fuel (pipe_src (batch_pipe n) _ st)) as [[[a o] c]| |] eqn:E; cbn [obind fst snd] in H; try discriminate. injection H as <- -> <-.
      rewrite (IH k _ _ _ _ E). destruct (batches n (next f) k fuel c) as [[[a' b'] c']| |]; reflexivity.
  Qed.
  Lemma batches_error n k s l e : gives (next f) s (l, Some e) -> e <> EOI -> 0 < n -> length l / n < k ->
    exists s' N, pulls (next f) s (l, Some e) (Datatypes.S (length l)) s' /\ forall fuel, N <= fuel -> batches n (next f) k fuel s = Done (pieces n (length l / n) l, Some e, s').
  Proof.
    intros G He Hn Hk. set (j := length l / n) in *. pose proof (Nat.div_mod (length l) n ltac:(lia)) as DM. fold j in DM. pose proof (Nat.mod_upper_bound (length l) n ltac:(lia)) as MB.
    destruct (batches_prefix n j s l (Some e) G ltac:(lia)) as (s1 & N1 & E1 & G1 & F1).
    destruct (batch_one n s1 (skipn (j * n) l) (Some e) e G1 (or_intror eq_refl)) as (st & N2 & Q & F2). rewrite skipn_length in *.
    destruct (Nat.leb_spec n (length l - j * n)) as [H|H]; [lia|].
    exists (pipe_src (batch_pipe n) _ st), (N1 + N2). split.
    - pose proof (pulls_after _ _ _ _ _ _ _ _ E1 Q) as P. rewrite firstn_skipn, firstn_length in P. replace (Datatypes.S (length l)) with (Nat.min (j * n) (length l) + Datatypes.S (length l - j * n)) by lia. exact P.
    - intros fuel Hf. replace k with (j + Datatypes.S (k - j - 1)) by lia. rewrite (batches_split n j _ _ _ _ _ (F1 fuel ltac:(lia))). cbn [batches]. rewrite F2 by lia. cbn [obind].
      destruct e; try congruence; cbn [obind fst snd]; rewrite app_nil_r; reflexivity.
  Qed.
End Batches.
