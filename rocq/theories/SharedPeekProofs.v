(** Looking at the next value of an iterator and putting it back does not change what the pipelines on it see. *)
From Verif Require Import Base Iter IterSpec IterProofs IterGenProofs Stream StreamSpec Pipe PipeSpec PipeProofs MemIter Shared SharedSpec SharedProofs.
Open Scope go_scope.
Open Scope nat_scope.

Section Peek.
  Context {S A : Type} {ZA : Zero A} (f : stepfn S A) (fuel : nat).

  (** [it'] is [it], perhaps after one peek *)
  Definition peeked (it it' : impl S A) : Prop :=
    it' = it \/
    (exists v it1, next f fuel it = Done ((v, None), it1) /\ it' = unread it1 v) \/
    (exists v e, next f fuel it = Done ((v, Some e), it')).

  Lemma next_unread (it : impl S A) v : next f fuel (unread it v) = Done ((v, None), it).
  Proof.
    unfold next, unread. cbn [buffer fn_live src last_err]. rewrite app_length. cbn [length]. replace (length (buffer it) + 1 - 1) with (length (buffer it)) by lia.
    rewrite nth_error_app2, Nat.sub_diag by lia. cbn. rewrite firstn_app, Nat.sub_diag, firstn_all. cbn. rewrite app_nil_r. destruct it; reflexivity.
  Qed.

  Lemma next_failed (it : impl S A) v e it' : next f fuel it = Done ((v, Some e), it') -> v = zv /\ next f fuel it' = Done ((zv, Some e), it').
  Proof.
    unfold next. destruct (nth_error (buffer it) (length (buffer it) - 1)) as [x|] eqn:EB; [discriminate|].
    destruct (fn_live it) eqn:EL.
    - destruct (f fuel (src it)) as [[[y [e'|]] s']| |]; cbn [obind]; try discriminate. intros H. injection H as <- <- <-. cbn [buffer fn_live last_err]. rewrite EB. auto.
    - intros H. injection H as <- E <-. rewrite EB, EL, E. auto.
  Qed.

  Lemma peeked_next it it' r it1 : peeked it it' -> next f fuel it = Done (r, it1) -> exists it1', next f fuel it' = Done (r, it1') /\ peeked it1 it1'.
  Proof.
    intros [-> | [(v & i & E & ->) | (v & e & E)]] H.
    - exists it1. split; [exact H|left; reflexivity].
    - rewrite H in E. injection E as -> ->. exists i. split; [apply next_unread|left; reflexivity].
    - rewrite H in E. injection E as -> ->. destruct (next_failed _ _ _ _ H) as [-> K]. exists it'. split; [exact K|left; reflexivity].
  Qed.

  Lemma next_peeked it it' r it1' : peeked it it' -> next f fuel it' = Done (r, it1') -> exists it1, next f fuel it = Done (r, it1) /\ peeked it1 it1'.
  Proof.
    intros [-> | [(v & i & E & ->) | (v & e & E)]] H.
    - exists it1'. split; [exact H|left; reflexivity].
    - rewrite next_unread in H. injection H as <- <-. exists i. split; [exact E|left; reflexivity].
    - destruct (next_failed _ _ _ _ E) as [-> K]. rewrite K in H. injection H as <- <-. exists it'. split; [exact E|left; reflexivity].
  Qed.

  Lemma peeked_peek it it' it2 : peeked it it' -> peek f fuel it' = Done it2 -> peeked it it2.
  Proof.
    unfold peek. intros [-> | [(v & i & E & ->) | (v & e & E)]] H.
    - destruct (next f fuel it) as [[[v [e|]] i]| |] eqn:E; cbn [obind] in H; try discriminate; injection H as <-; right; [right; eauto|left; eauto].
    - rewrite next_unread in H. cbn [obind] in H. injection H as <-. right; left; eauto.
    - destruct (next_failed _ _ _ _ E) as [-> K]. rewrite K in H. cbn [obind] in H. injection H as <-. right; right; eauto.
  Qed.

  Lemma peeked_took rs : forall it it' it1, peeked it it' -> took (next f) fuel it rs it1 -> exists it1', took (next f) fuel it' rs it1' /\ peeked it1 it1'.
  Proof.
    induction rs as [|r rs IH]; intros it it' it1 P H; inversion H; subst.
    - exists it'. split; [constructor|exact P].
    - match goal with X : next f fuel it = _ |- _ => destruct (peeked_next _ _ _ _ P X) as (i & E & P') end.
      match goal with X : took _ _ _ rs _ |- _ => destruct (IH _ _ _ P' X) as (i2 & T & P2) end. exists i2. split; [econstructor; eauto|exact P2].
  Qed.

  Lemma took_peeked rs : forall it it' it1', peeked it it' -> took (next f) fuel it' rs it1' -> exists it1, took (next f) fuel it rs it1 /\ peeked it1 it1'.
  Proof.
    induction rs as [|r rs IH]; intros it it' it1' P H; inversion H; subst.
    - exists it. split; [constructor|exact P].
    - match goal with X : next f fuel it' = _ |- _ => destruct (next_peeked _ _ _ _ P X) as (i & E & P') end.
      match goal with X : took _ _ _ rs _ |- _ => destruct (IH _ _ _ P' X) as (i2 & T & P2) end. exists i2. split; [econstructor; eauto|exact P2].
  Qed.

  (** every call ends *)
  Definition alive (it : impl S A) : Prop := forall rs it1, took (next f) fuel it rs it1 -> exists r it2, next f fuel it1 = Done (r, it2).

  Lemma alive_peek it it' : alive it -> peeked it it' -> exists it2, peek f fuel it' = Done it2.
  Proof.
    unfold peek. intros Al [-> | [(v & i & E & ->) | (v & e & E)]].
    - destruct (Al [] it (took_nil _ _ _)) as ([v [e|]] & i & ->); cbn [obind]; eauto.
    - rewrite next_unread. cbn [obind]. eauto.
    - destruct (next_failed _ _ _ _ E) as [-> K]. rewrite K. cbn [obind]. eauto.
  Qed.
  Lemma alive_took it rs it1 : alive it -> took (next f) fuel it rs it1 -> alive it1.
  Proof. intros Al T rs' it2 T'. apply (Al (rs ++ rs')). apply took_app. eauto. Qed.
  Lemma alive_step it r it1 : next f fuel it = Done (r, it1) -> alive it1 -> alive it.
  Proof.
    intros E Al rs it2 T. inversion T; subst; [eauto|]. match goal with X : next f fuel it = Done _ |- _ => rewrite E in X; injection X as <- <- end. eapply Al. eassumption.
  Qed.
  Lemma alive_failed it v e it1 : next f fuel it = Done ((v, Some e), it1) -> alive it1.
  Proof.
    intros E. destruct (next_failed _ _ _ _ E) as [_ K]. intros rs. induction rs as [|r rs IH]; intros it2 T; inversion T; subst; [eauto|].
    match goal with X : next f fuel it1 = Done _ |- _ => rewrite K in X; injection X as <- <- end. auto.
  Qed.

  Local Notation I := (impl S A).
  Context {B C : Type} (p : pipe A B) (q : pipe A C).

  Lemma call_peeked {D} (g : pipe A D) st0 st0' it it' r st : (forall s : impl S A, pipe_put g I I st0' s = pipe_put g I I st0 s) -> peeked it it' ->
    pipe_next g I (next f) fuel (pipe_put g I I st0 it) = Done (r, st) ->
    exists rs st', took (next f) fuel it rs (pipe_src g I st) /\ pipe_next g I (next f) fuel (pipe_put g I I st0' it') = Done (r, st') /\
      peeked (pipe_src g I st) (pipe_src g I st') /\ forall s : impl S A, pipe_put g I I st' s = pipe_put g I I st s.
  Proof.
    intros Q P E. destruct (pipe_track g _ (next f) fuel _ _ _ E) as (rs & T & K). rewrite pipe_src_put in T.
    destruct (peeked_took _ _ _ _ P T) as (i & T' & P'). specialize (K _ _ _ _ T'). rewrite pipe_put_put, <- Q in K.
    exists rs, (pipe_put g I I st i). split; [exact T|]. split; [exact K|]. rewrite pipe_src_put. split; [exact P'|]. intros s. apply pipe_put_put.
  Qed.

  Lemma peeks_none who : forall stp stq stp' stq' it it' o it1,
    (forall s : impl S A, pipe_put p I I stp' s = pipe_put p I I stp s) -> (forall s : impl S A, pipe_put q I I stq' s = pipe_put q I I stq s) ->
    peeked it it' -> alive it -> two p q (next f) (calls who) fuel stp stq it = Done (o, it1) ->
    exists it1', two_peeks p q f who fuel stp' stq' it' = Done (o, it1') /\ peeked it1 it1'.
  Proof.
    induction who as [|[[|]|] who IH]; intros stp stq stp' stq' it it' o it1 Hp Hq P Al E; cbn [calls two two_peeks] in *.
    - injection E as <- <-. eauto.
    - destruct (pipe_next p I (next f) fuel (pipe_put p I I stp it)) as [[r st]| |] eqn:N; cbn [obind] in E; try discriminate.
      destruct (call_peeked p _ _ _ _ _ _ Hp P N) as (rs & st' & T & N' & P' & H'). rewrite N'. cbn [obind].
      destruct (two p q (next f) (calls who) fuel st stq (pipe_src p I st)) as [[o1 i1]| |] eqn:E1; cbn [obind] in E; try discriminate. injection E as <- <-.
      destruct (IH _ _ _ _ _ _ _ _ H' Hq P' (alive_took _ _ _ Al T) E1) as (i & -> & Pi). cbn [obind]. eauto.
    - destruct (pipe_next q I (next f) fuel (pipe_put q I I stq it)) as [[r st]| |] eqn:N; cbn [obind] in E; try discriminate.
      destruct (call_peeked q _ _ _ _ _ _ Hq P N) as (rs & st' & T & N' & P' & H'). rewrite N'. cbn [obind].
      destruct (two p q (next f) (calls who) fuel stp st (pipe_src q I st)) as [[o1 i1]| |] eqn:E1; cbn [obind] in E; try discriminate. injection E as <- <-.
      destruct (IH _ _ _ _ _ _ _ _ Hp H' P' (alive_took _ _ _ Al T) E1) as (i & -> & Pi). cbn [obind]. eauto.
    - destruct (alive_peek _ _ Al P) as (i & Ei). rewrite Ei. cbn [obind]. eapply IH; eauto. eapply peeked_peek; eauto.
  Qed.

  Lemma call_unpeeked {D} (g : pipe A D) st0 st0' it it' r st' : (forall s : impl S A, pipe_put g I I st0' s = pipe_put g I I st0 s) -> peeked it it' ->
    pipe_next g I (next f) fuel (pipe_put g I I st0' it') = Done (r, st') ->
    exists st, pipe_next g I (next f) fuel (pipe_put g I I st0 it) = Done (r, st) /\
      peeked (pipe_src g I st) (pipe_src g I st') /\ forall s : impl S A, pipe_put g I I st' s = pipe_put g I I st s.
  Proof.
    intros Q P E. destruct (pipe_track g _ (next f) fuel _ _ _ E) as (rs & T & K). rewrite pipe_src_put in T.
    destruct (took_peeked _ _ _ _ P T) as (i & T' & P'). specialize (K _ _ _ _ T'). rewrite pipe_put_put, Q in K.
    exists (pipe_put g I I st' i). split; [exact K|]. rewrite pipe_src_put. split; [exact P'|]. intros s. symmetry. apply pipe_put_put.
  Qed.

  Lemma none_peeks who : forall stp stq stp' stq' it it' o it1',
    (forall s : impl S A, pipe_put p I I stp' s = pipe_put p I I stp s) -> (forall s : impl S A, pipe_put q I I stq' s = pipe_put q I I stq s) ->
    peeked it it' -> two_peeks p q f who fuel stp' stq' it' = Done (o, it1') ->
    exists it1, two p q (next f) (calls who) fuel stp stq it = Done (o, it1) /\ peeked it1 it1'.
  Proof.
    induction who as [|[[|]|] who IH]; intros stp stq stp' stq' it it' o it1' Hp Hq P E; cbn [calls two two_peeks] in *.
    - injection E as <- <-. eauto.
    - destruct (pipe_next p I (next f) fuel (pipe_put p I I stp' it')) as [[r st']| |] eqn:N; cbn [obind] in E; try discriminate.
      destruct (call_unpeeked p _ _ _ _ _ _ Hp P N) as (st & N' & P' & H'). rewrite N'. cbn [obind].
      destruct (two_peeks p q f who fuel st' stq' (pipe_src p I st')) as [[o1 i1]| |] eqn:E1; cbn [obind] in E; try discriminate. injection E as <- <-.
      destruct (IH _ _ _ _ _ _ _ _ H' Hq P' E1) as (i & -> & Pi). cbn [obind]. eauto.
    - destruct (pipe_next q I (next f) fuel (pipe_put q I I stq' it')) as [[r st']| |] eqn:N; cbn [obind] in E; try discriminate.
      destruct (call_unpeeked q _ _ _ _ _ _ Hq P N) as (st & N' & P' & H'). rewrite N'. cbn [obind].
      destruct (two_peeks p q f who fuel stp' st' (pipe_src q I st')) as [[o1 i1]| |] eqn:E1; cbn [obind] in E; try discriminate. injection E as <- <-.
      destruct (IH _ _ _ _ _ _ _ _ Hp H' P' E1) as (i & -> & Pi). cbn [obind]. eauto.
    - destruct (peek f fuel it') as [i| |] eqn:Ei; cbn [obind] in E; try discriminate.
      exact (IH _ _ _ _ _ _ _ _ Hp Hq (peeked_peek _ _ _ P Ei) E).
  Qed.
End Peek.

Lemma gives_alive {S A} {ZA : Zero A} (f : stepfn S A) s l e : gives f s (l, Some e) -> exists N, forall fuel, N <= fuel -> alive f fuel (ofIter s).
Proof.
  intros (s' & E & F). destruct (F e eq_refl) as (s'' & v & n & R). cbn [fst] in E. clear F. revert R. induction E as [s|s x s1 l s2 [m X] E IH]; intros R.
  - exists n. intros fuel H. assert (N : next f fuel (ofIter s) = Done ((zv, Some e), dead s'' e)) by (unfold next; cbn; rewrite (R fuel H); reflexivity).
    eapply alive_step; [exact N|]. eapply alive_failed. exact N.
  - destruct (IH R) as [N K]. exists (N + m). intros fuel H. apply (alive_step f fuel _ (x, None) (ofIter s1)); [unfold next; cbn; rewrite (X fuel) by lia; reflexivity|]. apply K. lia.
Qed.
