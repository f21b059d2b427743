(** Pipelines over slices in memory: exchanging the source, and loops that store into the memory they read from. *)
From Verif Require Import Base Iter IterGen IterSpec IterProofs IterGenProofs Stream StreamSpec StreamProofs Pipe PipeSpec PipeProofs Slice SliceMem SliceMemProofs MemIter MemIterSpec.
Open Scope go_scope.
Open Scope nat_scope.

Lemma pipe_same {S0 A B} (p : pipe A B) : forall it : iterator S0 A, apply_pipe p it =
  mkIterator (pipe_state p (it_state it)) (pipe_next p _ (it_next it)) (pipe_init p _ (it_init it)) (fun st => it_source it (pipe_src p _ st)).
Proof.
  induction p as [A|A B C g p IH]; intros it; [destruct it; reflexivity|]. cbn [apply_pipe]. rewrite IH. reflexivity.
Qed.

(** ** Two sources that agree where they are called *)
Section Local.
  Context {S : Type} (P : S -> Prop).
  Definition agrees {T} (nx1 nx2 : stepfn S T) : Prop :=
    forall fuel s, P s -> nx1 fuel s = nx2 fuel s /\ forall r s', nx2 fuel s = Done (r, s') -> P s'.

  Lemma pull_loop_local {T A R} (nx1 nx2 : stepfn S T) (body : A -> T -> outcome (A + R)) onerr : agrees nx1 nx2 ->
    forall loop fuel a s, P s -> pull_loop nx1 body onerr loop fuel a s = pull_loop nx2 body onerr loop fuel a s /\
      forall r s', pull_loop nx2 body onerr loop fuel a s = Done (r, s') -> P s'.
  Proof.
    intros L. induction loop as [|loop IH]; intros fuel a s Ps; cbn [pull_loop]; [split; [reflexivity|discriminate]|].
    destruct (L fuel s Ps) as [E K]. rewrite E. destruct (nx2 fuel s) as [[[v [e|]] s']| |]; cbn [obind]; try (split; [reflexivity|discriminate]).
    - split; [reflexivity|]. intros r s2 H. injection H as _ <-. eapply K. reflexivity.
    - pose proof (K _ _ eq_refl) as P'. destruct (body a v) as [[a'|res]| |]; cbn [obind]; try (split; [reflexivity|discriminate]).
      + apply IH; auto.
      + split; [reflexivity|]. intros r s2 H. injection H as _ <-. exact P'.
  Qed.

  Lemma skip_loop_local {T} (nx1 nx2 : stepfn S T) : agrees nx1 nx2 ->
    forall n fuel s, P s -> skip_loop nx1 n fuel s = skip_loop nx2 n fuel s /\ forall r s', skip_loop nx2 n fuel s = Done (r, s') -> P (snd s').
  Proof.
    intros L. induction n as [|n IH]; intros fuel s Ps; cbn [skip_loop]; [split; [reflexivity|intros r s' H; injection H as _ <-; exact Ps]|].
    destruct (L fuel s Ps) as [E K]. rewrite E. destruct (nx2 fuel s) as [[[v [e|]] s']| |]; cbn [obind]; try (split; [reflexivity|discriminate]).
    - split; [reflexivity|]. intros r s2 H. injection H as _ <-. eapply K. reflexivity.
    - apply IH. eapply K. reflexivity.
  Qed.

  Lemma reduce_loop_local {T U} (ZU : Zero U) (nx1 nx2 : stepfn S T) (f : U -> T -> U) : agrees nx1 nx2 ->
    forall fuel a s, P s -> reduce_loop nx1 f a fuel s = reduce_loop nx2 f a fuel s /\ forall r s', reduce_loop nx2 f a fuel s = Done (r, s') -> P (snd s').
  Proof.
    intros L fuel a s Ps. unfold reduce_loop.
    match goal with |- context [pull_loop nx2 ?b ?o fuel fuel a s] => destruct (pull_loop_local nx1 nx2 b o L fuel fuel a s Ps) as [E K]; rewrite E; destruct (pull_loop nx2 b o fuel fuel a s) as [[r s']| |] end;
      cbn [obind]; split; try reflexivity; try discriminate.
    intros r0 s0 H. injection H as _ <-. eapply K. reflexivity.
  Qed.
End Local.

Lemma stage_local {S A B} (g : stage A B) (P : S -> Prop) (nx1 nx2 : stepfn S A) : agrees P nx1 nx2 ->
  agrees (fun st => P (stage_src g st)) (stage_fn g nx1) (stage_fn g nx2).
Proof.
  intros L fuel st Ps. destruct g; cbn [stage_fn stage_src stage_state] in *.
  - unfold st_map. destruct st as [s c]. cbn [fst] in Ps. destruct (L fuel s Ps) as [E K]. rewrite E.
    destruct (nx2 fuel s) as [[[v [e|]] s']| |]; cbn [obind]; try (split; [reflexivity|discriminate]); [|destruct (f c v) as [u c']];
      (split; [reflexivity|]; intros r st' H; injection H as _ <-; eapply K; reflexivity).
  - unfold st_map_error. destruct st as [s c]. cbn [fst] in Ps. destruct (L fuel s Ps) as [E K]. rewrite E.
    destruct (nx2 fuel s) as [[[v [e|]] s']| |]; cbn [obind]; try (split; [reflexivity|discriminate]); [|destruct (f c v) as [[u [e|]] c']];
      (split; [reflexivity|]; intros r st' H; injection H as _ <-; eapply K; reflexivity).
  - unfold st_filter. destruct st as [s c]. cbn [fst] in Ps.
    match goal with |- context [pull_loop nx2 ?b ?o fuel fuel c s] => destruct (pull_loop_local P nx1 nx2 b o L fuel fuel c s Ps) as [E K]; rewrite E; destruct (pull_loop nx2 b o fuel fuel c s) as [[r s']| |] end;
      cbn [obind]; split; try reflexivity; try discriminate.
    intros r0 s0 H. injection H as _ <-. eapply K. reflexivity.
  - unfold st_peek. destruct st as [s c]. cbn [fst] in Ps. destruct (L fuel s Ps) as [E K]. rewrite E.
    destruct (nx2 fuel s) as [[[v [e|]] s']| |]; cbn [obind]; try (split; [reflexivity|discriminate]);
      (split; [reflexivity|]; intros r st' H; injection H as _ <-; eapply K; reflexivity).
  - unfold st_skip. destruct st as [k s]. cbn [snd] in Ps. destruct (skip_loop_local P nx1 nx2 L k fuel s Ps) as [E K]. rewrite E.
    destruct (skip_loop nx2 k fuel s) as [[[e|] st']| |]; cbn [obind]; try (split; [reflexivity|discriminate]).
    + split; [reflexivity|]. intros r st2 H. injection H as _ <-. eapply K. reflexivity.
    + pose proof (K _ _ eq_refl) as P'. destruct (L fuel (snd st') P') as [E2 K2]. rewrite E2.
      destruct (nx2 fuel (snd st')) as [[[v [e|]] s']| |]; cbn [obind]; try (split; [reflexivity|discriminate]);
      (split; [reflexivity|]; intros r st2 H; injection H as _ <-; eapply K2; reflexivity).
  - unfold st_limit. destruct st as [k s]. cbn [snd] in Ps. destruct k as [|k]; [split; [reflexivity|intros r st' H; injection H as _ <-; exact Ps]|].
    destruct (L fuel s Ps) as [E K]. rewrite E.
    destruct (nx2 fuel s) as [[[v [e|]] s']| |]; cbn [obind]; try (split; [reflexivity|discriminate]);
      (split; [reflexivity|]; intros r st' H; injection H as _ <-; eapply K; reflexivity).
  - unfold st_reduce_to. destruct st as [d s]. cbn [snd] in Ps. destruct d; [split; [reflexivity|intros r st' H; injection H as _ <-; exact Ps]|].
    destruct (L fuel s Ps) as [E K]. destruct identity as [|id ids]; rewrite E; destruct (nx2 fuel s) as [[[v [e|]] s']| |]; cbn [obind]; try (split; [reflexivity|discriminate]).
    + split; [reflexivity|]. intros r st' H; injection H as _ <-; eapply K; reflexivity.
    + apply reduce_loop_local; auto. eapply K; reflexivity.
    + destruct e; (split; [reflexivity|]; intros r st' H; injection H as _ <-; eapply K; reflexivity).
    + apply reduce_loop_local; auto. eapply K; reflexivity.
  - unfold st_reduce. destruct st as [d s]. cbn [snd] in Ps. destruct d; [split; [reflexivity|intros r st' H; injection H as _ <-; exact Ps]|].
    destruct (L fuel s Ps) as [E K]. destruct identity as [|id ids]; rewrite E; destruct (nx2 fuel s) as [[[v [e|]] s']| |]; cbn [obind]; try (split; [reflexivity|discriminate]).
    + split; [reflexivity|]. intros r st' H; injection H as _ <-; eapply K; reflexivity.
    + apply reduce_loop_local; auto. eapply K; reflexivity.
    + destruct e; (split; [reflexivity|]; intros r st' H; injection H as _ <-; eapply K; reflexivity).
    + apply reduce_loop_local; auto. eapply K; reflexivity.
  - unfold st_reduce_bool. destruct st as [d s]. cbn [snd] in Ps. destruct d; [split; [reflexivity|intros r st' H; injection H as _ <-; exact Ps]|].
    destruct (L fuel s Ps) as [E K]. rewrite E; destruct (nx2 fuel s) as [[[v [e|]] s']| |]; cbn [obind]; try (split; [reflexivity|discriminate]).
    + destruct e; (split; [reflexivity|]; intros r st' H; injection H as _ <-; eapply K; reflexivity).
    + pose proof (K _ _ eq_refl) as P'. cbv zeta. destruct (Bool.eqb (p v) stopVal); [split; [reflexivity|]; intros r st' H; injection H as _ <-; exact P'|].
      match goal with |- context [pull_loop nx2 ?b ?o fuel fuel ?c s'] => destruct (pull_loop_local P nx1 nx2 b o L fuel fuel c s' P') as [E2 K2]; rewrite E2; destruct (pull_loop nx2 b o fuel fuel c s') as [[r s2]| |] end;
      cbn [obind]; split; try reflexivity; try discriminate.
      intros r0 s0 H. injection H as _ <-. eapply K2. reflexivity.
  - unfold st_to_slice. destruct st as [d s]. cbn [snd] in Ps. destruct d; [split; [reflexivity|intros r st' H; injection H as _ <-; exact Ps]|].
    match goal with |- context [pull_loop nx2 ?b ?o fuel fuel ?c s] => destruct (pull_loop_local P nx1 nx2 b o L fuel fuel c s Ps) as [E2 K2]; rewrite E2; destruct (pull_loop nx2 b o fuel fuel c s) as [[r s2]| |] end;
      cbn [obind]; split; try reflexivity; try discriminate.
    intros r0 s0 H. injection H as _ <-. eapply K2. reflexivity.
  - unfold st_expand_slices. destruct st as [[slc idx] s]. cbn [snd] in Ps. destruct ((length slc =? 0) || (idx =? length slc)).
    + match goal with |- context [pull_loop nx2 ?b ?o fuel fuel ?c s] => destruct (pull_loop_local P nx1 nx2 b o L fuel fuel c s Ps) as [E2 K2]; rewrite E2; destruct (pull_loop nx2 b o fuel fuel c s) as [[r s2]| |] end;
      cbn [obind]; [|split; [reflexivity|discriminate]|split; [reflexivity|discriminate]].
      pose proof (K2 _ _ eq_refl) as P'. destruct r as [sl|e]; [destruct (nth_error sl 0)|]; split; try reflexivity; try discriminate; intros r0 s0 H; injection H as _ <-; exact P'.
    + destruct (nth_error slc idx); split; try reflexivity; try discriminate; intros r0 s0 H; injection H as _ <-; exact Ps.
  - unfold st_to_map. destruct st as [d s]. cbn [snd] in Ps. destruct d; [split; [reflexivity|intros r st' H; injection H as _ <-; exact Ps]|].
    match goal with |- context [pull_loop nx2 ?b ?o fuel fuel ?c s] => destruct (pull_loop_local P nx1 nx2 b o L fuel fuel c s Ps) as [E2 K2]; rewrite E2; destruct (pull_loop nx2 b o fuel fuel c s) as [[r s2]| |] end;
      cbn [obind]; split; try reflexivity; try discriminate.
    intros r0 s0 H. injection H as _ <-. eapply K2. reflexivity.
  - unfold st_expand_maps. destruct st as [m s]. cbn [snd] in Ps. destruct m as [[|kv rest]|].
    2: { split; [reflexivity|]. intros r0 s0 H. injection H as _ <-. exact Ps. }
    + match goal with |- context [pull_loop nx2 ?b ?o fuel fuel ?c ?x] => destruct (pull_loop_local P nx1 nx2 b o L fuel fuel c x Ps) as [E2 K2]; rewrite E2; destruct (pull_loop nx2 b o fuel fuel c x) as [[r s2]| |] end;
      cbn [obind]; [|split; [reflexivity|discriminate]|split; [reflexivity|discriminate]];
      pose proof (K2 _ _ eq_refl) as P'; destruct r as [[kv' rest']|e]; (split; [reflexivity|]); intros r0 s0 H; injection H as _ <-; exact P'.
    + match goal with |- context [pull_loop nx2 ?b ?o fuel fuel ?c ?x] => destruct (pull_loop_local P nx1 nx2 b o L fuel fuel c x Ps) as [E2 K2]; rewrite E2; destruct (pull_loop nx2 b o fuel fuel c x) as [[r s2]| |] end;
      cbn [obind]; [|split; [reflexivity|discriminate]|split; [reflexivity|discriminate]];
      pose proof (K2 _ _ eq_refl) as P'; destruct r as [[kv' rest']|e]; (split; [reflexivity|]); intros r0 s0 H; injection H as _ <-; exact P'.
Qed.

Lemma next_local {S T} (ZT : Zero T) (P : S -> Prop) (f1 f2 : stepfn S T) : agrees P f1 f2 -> agrees (fun it => P (src it)) (next f1) (next f2).
Proof.
  intros L fuel it Pi. unfold next. destruct (nth_error (buffer it) (length (buffer it) - 1)) as [v|].
  - split; [reflexivity|]. intros r it' H. injection H as _ <-. exact Pi.
  - destruct (fn_live it); [|split; [reflexivity|intros r it' H; injection H as _ <-; exact Pi]].
    destruct (L fuel (src it) Pi) as [E K]. rewrite E. destruct (f2 fuel (src it)) as [[[v [e|]] s']| |]; cbn [obind]; try (split; [reflexivity|discriminate]);
      (split; [reflexivity|]; intros r it' H; injection H as _ <-; eapply K; reflexivity).
Qed.

Lemma pipe_local {A B} (p : pipe A B) : forall S (P : S -> Prop) (nx1 nx2 : stepfn S A), agrees P nx1 nx2 ->
  agrees (fun st => P (pipe_src p _ st)) (pipe_next p _ nx1) (pipe_next p _ nx2).
Proof.
  induction p as [A|A B C g p IH]; intros S P nx1 nx2 L; [exact L|]. cbn [pipe_next pipe_src].
  exact (IH _ (fun it => P (stage_src g (src it))) _ _ (next_local (stage_zero g) _ _ _ (stage_local g P nx1 nx2 L))).
Qed.

(** two slices with the same contents from [i0] on *)
Lemma slice_agrees {T} (ZT : Zero T) (l1 l2 : list T) i0 : length l1 = length l2 -> (forall i, i0 <= i -> nth_error l1 i = nth_error l2 i) ->
  agrees (fun i => i0 <= i) (slice_gen l1) (slice_gen l2).
Proof.
  intros EL E fuel i Hi. unfold slice_gen. rewrite EL, (E i Hi). destruct (i <? length l2); [destruct (nth_error l2 i)|]; split; try reflexivity; try discriminate;
    intros r s' H; injection H as _ <-; lia.
Qed.

(** ** Pulling one more *)
Lemma pulls_last {S T} (f : stepfn S T) : forall n s l o s', pulls f s (l, o) (Datatypes.S n) s' ->
  exists s1, pulls f s (l, o) n s1 /\ match nth_error l n with Some v => returns f s1 (v, None) s' | None => exists e, o = Some e /\ fails f s1 e s' end.
Proof.
  induction n as [|n IH]; intros s l o s' H; inversion H; subst.
  - match goal with X : pulls _ _ _ 0 _ |- _ => inversion X; subst end. exists s. split; [constructor|]. cbn. assumption.
  - exists s. split; [constructor|]. cbn. eauto.
  - match goal with X : pulls _ ?s1 _ (Datatypes.S n) _ |- _ => destruct (IH _ _ _ _ X) as (s2 & P2 & R) end. exists s2. split; [econstructor; eauto|]. exact R.
Qed.
Lemma pulls_more {S T} (f : stepfn S T) n s tr s' : pulls f s tr (Datatypes.S n) s' ->
  exists s1, pulls f s tr n s1 /\ match nth_error (fst tr) n with Some v => returns f s1 (v, None) s' | None => exists e, snd tr = Some e /\ fails f s1 e s' end.
Proof. destruct tr as [l o]. apply pulls_last. Qed.
Lemma slice_pulls {T} (ZT : Zero T) (l : list T) n i : pulls (slice_gen l) 0 (l, Some EOI) n i -> i = Nat.min n (length l).
Proof.
  assert (G : forall n post pre i, l = pre ++ post -> pulls (slice_gen l) (length pre) (post, Some EOI) n i -> i = Nat.min (length pre + n) (length l)).
  { clear n i. induction n as [|n IH]; intros post pre i E H.
    - inversion H; subst. rewrite app_length. lia.
    - destruct post as [|v q]; inversion H as [|? ? sa ? ? ? ? R P'|? ? ? F]; subst.
      + destruct F as [v [k R]]. specialize (R k (le_n k)). unfold slice_gen in R. rewrite app_nil_r, Nat.ltb_irrefl in R. injection R as _ <-. rewrite app_nil_r. lia.
      + destruct R as [k R]. specialize (R k (le_n k)). unfold slice_gen in R. rewrite app_length in R. cbn [length] in R.
        destruct (Nat.ltb_spec (length pre) (length pre + Datatypes.S (length q))); [|lia].
        rewrite nth_error_app2, Nat.sub_diag in R by lia. cbn [nth_error] in R. injection R as <-.
        replace (length pre + 1) with (length (pre ++ [v])) in P' by (rewrite app_length; reflexivity).
        rewrite (IH q (pre ++ [v]) i); [rewrite !app_length; cbn; lia|rewrite <- app_assoc; reflexivity|exact P']. }
  intros H. exact (G n l [] i eq_refl H).
Qed.

Section Pure.
  Context {T U D : Type} {ZT : Zero T} (p : pipe T U) (from : slice) (m0 : @mem T).
  Variable store : @mem T -> D -> U -> outcome (@mem T * D).
  Let l := contents m0 from.
  Let tr : trace T := (l, Some EOI).
  Let out := fst (meaning p tr).
  Let idx (k : nat) := Nat.min (demand p tr k) (length l).
  Let init := pipe_init p _ (@ofIter nat T 0).

  Lemma pure_pulls k : covers (meaning p tr) k -> exists st, pulls (pipe_next p _ (next (slice_gen l))) init (meaning p tr) k st /\ src (pipe_src p _ st) = idx k.
  Proof.
    intros C. assert (G : gives (slice_gen l) 0 tr).
    { exists (length l). split; [apply slice_emits|]. intros e H. injection H as <-. exists (length l). apply slice_fails. }
    destruct (proj2 (pipe_reads p (slice_gen l) 0 tr (source ZT (slice_gen l) 0) tr (fun k => k) (source_reads ZT _ _ _ G)) k C) as (st & P1 & P2).
    revert st P1 P2. rewrite pipe_same. cbn [it_state it_next it_init it_source source]. intros st P1 P2. exists st. split; [exact P1|].
    apply slice_pulls in P2. exact P2.
  Qed.

  Variable I : nat -> @mem T -> D -> Prop.
  Variable n : nat.
  Hypothesis HN : n <= length out.
  Hypothesis IREAD : forall k m d, k <= n -> I k m d -> length (contents m from) = length l /\ forall i, idx k <= i -> nth_error (contents m from) i = nth_error l i.
  Hypothesis ISTORE : forall k m d v, k < n -> nth_error out k = Some v -> I k m d -> exists m' d', store m d v = Done (m', d') /\ I (S k) m' d'.

  Lemma mem_same k m d st fuel : k <= n -> I k m d -> src (pipe_src p _ st) = idx k ->
    mem_next p from m fuel st = pipe_next p _ (next (slice_gen l)) fuel st.
  Proof.
    intros Hk HI HS. destruct (IREAD k m d Hk HI) as [EL EN]. unfold mem_next.
    refine (proj1 (pipe_local p _ (fun it => idx k <= src it) _ _ (next_local ZT _ _ _ (slice_agrees ZT _ _ (idx k) EL EN)) fuel st _)).
    cbn beta. lia.
  Qed.

  Lemma drive_steps d0 : I 0 m0 d0 -> forall k, k <= n -> exists m d st, I k m d /\ pulls (pipe_next p _ (next (slice_gen l))) init (meaning p tr) k st /\ src (pipe_src p _ st) = idx k /\
    exists N, forall fuel, N <= fuel -> forall loop, drive p from store (k + loop) fuel m0 d0 init = drive p from store loop fuel m d st.
  Proof.
    intros HI0. induction k as [|k IH]; intros Hk.
    - destruct (pure_pulls 0) as (st & P & E); [left; lia|]. inversion P; subst. exists m0, d0, init. split; auto. split; [constructor|]. split; auto. exists 0. reflexivity.
    - destruct (IH ltac:(lia)) as (m & d & st & HI & P & E & N & R).
      destruct (pure_pulls (S k)) as (st1 & P1 & E1); [left; fold out; lia|].
      destruct (pulls_more _ _ _ _ _ P1) as (st' & P' & RR). fold out in RR. pose proof (pulls_det _ _ _ _ _ P _ P') as <-.
      destruct (nth_error out k) as [v|] eqn:EV; [|exfalso; apply nth_error_None in EV; lia].
      destruct (ISTORE k m d v ltac:(lia) EV HI) as (m' & d' & ST & HI'). destruct RR as [N2 RR].
      exists m', d', st1. split; auto. split; auto. split; auto. exists (N + N2). intros fuel Hf loop.
      replace (S k + loop) with (k + S loop) by lia. rewrite (R fuel ltac:(lia)). cbn [drive].
      rewrite (mem_same k m d st fuel ltac:(lia) HI E), (RR fuel ltac:(lia)). cbn [obind]. rewrite ST. reflexivity.
  Qed.

  (** all of it *)
  Lemma drive_pure d0 e : n = length out -> snd (meaning p tr) = Some e -> I 0 m0 d0 ->
    exists m d st, I n m d /\ exists N, forall loop fuel, N <= loop -> N <= fuel -> drive p from store loop fuel m0 d0 init = Done (e, (m, d, st)).
  Proof.
    intros EN EE HI0. destruct (drive_steps d0 HI0 n (le_n n)) as (m & d & st & HI & P & E & N & R).
    destruct (pure_pulls (S n)) as (st1 & P1 & E1); [right; split; [fold out; lia|congruence]|].
    destruct (pulls_more _ _ _ _ _ P1) as (st' & P' & RR). fold out in RR. pose proof (pulls_det _ _ _ _ _ P _ P') as <-.
    rewrite (proj2 (nth_error_None out n)) in RR by lia. destruct RR as (e' & Ee & v & N2 & RR). assert (e' = e) by congruence. subst e'.
    exists m, d, st1. split; auto. exists (N + N2 + n + 1). intros loop fuel Hl Hf. replace loop with (n + S (loop - n - 1)) by lia. rewrite (R fuel ltac:(lia)). cbn [drive].
    rewrite (mem_same n m d st fuel (le_n n) HI E), (RR fuel ltac:(lia)). reflexivity.
  Qed.

  (** a store that panics *)
  Lemma drive_panics d0 v : nth_error out n = Some v -> (forall m d, I n m d -> store m d v = Panicked) -> I 0 m0 d0 ->
    exists N, forall loop fuel, N <= loop -> N <= fuel -> drive p from store loop fuel m0 d0 init = Panicked.
  Proof.
    intros EV SP HI0. destruct (drive_steps d0 HI0 n (le_n n)) as (m & d & st & HI & P & E & N & R).
    assert (n < length out) by (apply nth_error_Some; congruence).
    destruct (pure_pulls (S n)) as (st1 & P1 & E1); [left; fold out; lia|].
    destruct (pulls_more _ _ _ _ _ P1) as (st' & P' & RR). fold out in RR. pose proof (pulls_det _ _ _ _ _ P _ P') as <-. rewrite EV in RR. destruct RR as [N2 RR].
    exists (N + N2 + n + 1). intros loop fuel Hl Hf. replace loop with (n + S (loop - n - 1)) by lia. rewrite (R fuel ltac:(lia)). cbn [drive].
    rewrite (mem_same n m d st fuel (le_n n) HI E), (RR fuel ltac:(lia)). cbn [obind]. rewrite (SP m d HI). reflexivity.
  Qed.
End Pure.
