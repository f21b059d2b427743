(** C117: several pipelines on one iterator.  Every value of the iterator goes to exactly one of them, in the order of the calls, and
    each behaves as if it were alone on its share. *)
From Verif Require Import Base Iter IterGen IterSpec IterProofs IterGenProofs Stream StreamSpec Pipe PipeSpec PipeProofs MemIter Shared SharedSpec SharedProofs SharedPeekProofs.
Open Scope go_scope.
Open Scope nat_scope.

(** Any iterator whatever (it may fail, go on after an error, or never end), any two pipelines made from it, any order of the calls: the
    results [rs] of the calls made on the iterator are divided between the two ([own]), and on any other iterator that returned its share
    alone, each pipeline would have given the same answers and used up exactly the share. *)
Theorem C117_any {S0 A B C : Type} (p : pipe A B) (q : pipe A C) (nx : stepfn S0 A) (s : S0) (fuel : nat) (who : list bool) op oq s' :
  two p q nx who fuel (pipe_init p _ s) (pipe_init q _ s) s = Done ((op, oq), s') ->
  exists rs own, took nx fuel s rs s' /\ length own = length rs /\
    (forall S2 (nx2 : stepfn S2 A) s2 s2', took nx2 fuel s2 (share true own rs) s2' ->
       exists st, ncalls (pipe_next p S2 nx2) fuel (turns true who) (pipe_init p _ s2) = Done (op, st) /\ pipe_src p _ st = s2') /\
    (forall S2 (nx2 : stepfn S2 A) s2 s2', took nx2 fuel s2 (share false own rs) s2' ->
       exists st, ncalls (pipe_next q S2 nx2) fuel (turns false who) (pipe_init q _ s2) = Done (oq, st) /\ pipe_src q _ st = s2').
Proof.
  intros H. destruct (two_any p q nx fuel who _ _ _ _ _ _ H) as (rs & own & stp & stq & T & L & K1 & K2). exists rs, own. split; [exact T|]. split; [exact L|]. split; intros S2 nx2 s2 s2' T2.
  - specialize (K1 S2 nx2 s2 s2' T2). rewrite pipe_put_init in K1. exists (pipe_put p _ _ stp s2'). split; [exact K1|apply pipe_src_put].
  - specialize (K2 S2 nx2 s2 s2' T2). rewrite pipe_put_init in K2. exists (pipe_put q _ _ stq s2'). split; [exact K2|apply pipe_src_put].
Qed.

(** iter.OfIter(f) whose values are [l] and then the error [e]: the calls all return, and the answers of each pipeline are the first ones of
    what it means on its share of [l], with the end of [l] as its end.  What nobody took is still there. *)
Theorem C117_shared {S0 A B C : Type} (za : Zero A) (p : pipe A B) (q : pipe A C) (f : stepfn S0 A) (s : S0) (l : list A) (e : err) (who : list bool) :
  gives f s (l, Some e) ->
  exists own s', length own <= length l /\ gives (next f) s' (skipn (length own) l, Some e) /\
    exists N, forall fuel, N <= fuel ->
      two p q (next f) who fuel (pipe_init p _ (ofIter s)) (pipe_init q _ (ofIter s)) (ofIter s) =
      Done ((answers (pipe_zero p za) (meaning p (share true own l, Some e)) (turns true who),
             answers (pipe_zero q za) (meaning q (share false own l, Some e)) (turns false who)), s').
Proof. apply two_shared. Qed.

(** The shares: together they are what was taken, and each value is in one of them. *)
Theorem C117_shares {A : Type} (own : list bool) (l : list A) : length own <= length l ->
  length (share true own l) + length (share false own l) = length own /\
  forall i v, i < length own -> nth_error l i = Some v ->
    exists b j, nth_error own i = Some b /\ nth_error (share b own l) j = Some v /\ j = length (share b (firstn i own) (firstn i l)).
Proof.
  revert l. induction own as [|o own IH]; intros [|x l] H; cbn [length] in H; try lia; [split; [reflexivity|intros; cbn in *; lia]|split; [reflexivity|intros; cbn in *; lia]|].
  destruct (IH l ltac:(lia)) as (I1 & I2). split.
  - cbn. destruct o; cbn; lia.
  - intros [|i] v Hi E.
    + cbn in E. injection E as ->. exists o, 0. cbn. destruct o; cbn; auto.
    + cbn in E, Hi. destruct (I2 i v ltac:(lia) E) as (b & j & J1 & J2 & J3). exists b, (if Bool.eqb o b then Datatypes.S j else j). cbn [nth_error firstn share]. destruct (Bool.eqb o b); cbn; split; auto.
Qed.

(** One after the other: after [k] calls on the first pipeline the iterator goes on where that pipeline stopped reading, and a second
    pipeline made from it means what it means on the rest. *)
Theorem C117_sequential {X A B C : Type} (p : pipe A B) (q : pipe A C) (nx : stepfn X A) (s : X) (tr : trace A) (k : nat) :
  gives nx s tr -> covers (meaning p tr) k -> demand p tr k <= length (fst tr) ->
  exists st, pulls (pipe_next p X nx) (pipe_init p X s) (meaning p tr) k st /\
    gives nx (pipe_src p X st) (left_over (demand p tr k) tr) /\
    forall k', covers (meaning q (left_over (demand p tr k) tr)) k' ->
      exists st', pulls (pipe_next q X nx) (pipe_init q X (pipe_src p X st)) (meaning q (left_over (demand p tr k) tr)) k' st'.
Proof.
  intros G Ck D. destruct (pipe_sequential p nx s tr k G Ck) as (st & P & _ & L). exists st. split; [exact P|]. split; [exact (L D)|].
  intros k' C'. destruct (pipe_sequential q nx _ _ k' (L D) C') as (st' & P' & _). eauto.
Qed.

(** Reading in batches: ReduceToSlice(Limit(n)(it)) again and again on the same iterator gives the values cut into pieces of [n], each once,
    and then empty batches; ... *)
Theorem C117_batches {S0 A : Type} (za : Zero A) (f : stepfn S0 A) (s : S0) (l : list A) (n k : nat) : gives f s (l, Some EOI) ->
  exists s' N, forall fuel, N <= fuel -> batches n (next f) k fuel (ofIter s) = Done (pieces n k l, None, s').
Proof.
  intros G. apply (batches_eoi za).
  - apply gives_next. exact G.
  - intros s1 s2 E F. destruct (next_settles za f s _ _ _ _ E F) as [_ R]. apply stuck_fixed. exact R.
Qed.
(** ... from an infinite iterator too, of which it reads no value too many; ... *)
Theorem C117_batches_infinite {S0 A : Type} (za : Zero A) (f : stepfn S0 A) (s : S0) (l : list A) (n k : nat) : gives f s (l, None) -> k * n <= length l ->
  exists s' N, gives (next f) s' (skipn (k * n) l, None) /\ forall fuel, N <= fuel -> batches n (next f) k fuel (ofIter s) = Done (pieces n k l, None, s').
Proof. intros G H. destruct (batches_prefix za f n k _ l None (gives_next za f s _ G) H) as (s' & N & _ & G' & F). eauto. Qed.
(** ... but if the iterator fails, the values read for the last batch are lost: only full batches have been returned. *)
Theorem C117_batches_error {S0 A : Type} (za : Zero A) (f : stepfn S0 A) (s : S0) (l : list A) (e : err) (n k : nat) :
  gives f s (l, Some e) -> e <> EOI -> 0 < n -> length l / n < k ->
  exists s' N, pulls (next f) (ofIter s) (l, Some e) (Datatypes.S (length l)) s' /\
    forall fuel, N <= fuel -> batches n (next f) k fuel (ofIter s) = Done (pieces n (length l / n) l, Some e, s').
Proof. intros G. apply (batches_error za). apply gives_next. exact G. Qed.
(** The pieces are the list. *)
Theorem C117_pieces {A : Type} (n k : nat) (l : list A) : length l <= k * n -> concat (pieces n k l) = l /\ Forall (fun b => length b <= n) (pieces n k l).
Proof.
  revert l. induction k as [|k IH]; intros l H; cbn in *.
  - destruct l; [auto|cbn in H; lia].
  - destruct (IH (skipn n l)) as (I1 & I2); [rewrite skipn_length; lia|]. rewrite I1. split; [apply firstn_skipn|]. constructor; [rewrite firstn_length; lia|exact I2].
Qed.

(** Looking at the next value of the iterator (Next, then Unread of the value unless there was an error) between the calls, as often
    as one likes, changes no answer: if the run with the peeks ends, the run without them ends with the same answers, ... *)
Theorem C117_peeks {S0 A B C : Type} (za : Zero A) (p : pipe A B) (q : pipe A C) (f : stepfn S0 A) (it : impl S0 A) (fuel : nat) (who : list (option bool)) o it' :
  two_peeks p q f who fuel (pipe_init p _ it) (pipe_init q _ it) it = Done (o, it') ->
  exists it1, two p q (next f) (calls who) fuel (pipe_init p _ it) (pipe_init q _ it) it = Done (o, it1).
Proof.
  intros E. destruct (none_peeks f fuel p q who (pipe_init p _ it) (pipe_init q _ it) _ _ it it o it' (fun _ => eq_refl) (fun _ => eq_refl) (or_introl eq_refl) E) as (i & H & _). eauto.
Qed.
(** ... and on an iterator that ends it does end: each pipeline answers as it would alone on its share. *)
Theorem C117_peeks_shared {S0 A B C : Type} (za : Zero A) (p : pipe A B) (q : pipe A C) (f : stepfn S0 A) (s : S0) (l : list A) (e : err) (who : list (option bool)) :
  gives f s (l, Some e) ->
  exists own, length own <= length l /\ exists N, forall fuel, N <= fuel ->
    exists it', two_peeks p q f who fuel (pipe_init p _ (ofIter s)) (pipe_init q _ (ofIter s)) (ofIter s) =
      Done ((answers (pipe_zero p za) (meaning p (share true own l, Some e)) (turns true (calls who)),
             answers (pipe_zero q za) (meaning q (share false own l, Some e)) (turns false (calls who))), it').
Proof.
  intros G. destruct (C117_shared za p q f s l e (calls who) G) as (own & s' & L & _ & N & H). destruct (gives_alive f s l e G) as [M Al].
  exists own. split; [exact L|]. exists (N + M). intros fuel F. specialize (H fuel ltac:(lia)).
  destruct (peeks_none f fuel p q who (pipe_init p _ (ofIter s)) (pipe_init q _ (ofIter s)) _ _ (ofIter s) (ofIter s) _ _ (fun _ => eq_refl) (fun _ => eq_refl) (or_introl eq_refl) (Al fuel ltac:(lia)) H) as (i & K & _).
  eauto.
Qed.

(** Two pipelines do not both see every value. *)
Theorem C117_both_see_all_refuted : ~ (forall (p q : pipe nat nat) (l : list nat) (who : list bool),
  exists s' N, forall fuel, N <= fuel -> two p q (next (slice_gen l)) who fuel (pipe_init p _ (ofIter 0)) (pipe_init q _ (ofIter 0)) (ofIter 0) =
    Done ((answers (pipe_zero p Zero_nat) (meaning p (l, Some EOI)) (turns true who), answers (pipe_zero q Zero_nat) (meaning q (l, Some EOI)) (turns false who)), s')).
Proof.
  intros H. destruct (H PEnd PEnd [1; 2] [true; false]) as (s' & N & F). specialize (F N (le_n _)). cbn in F. discriminate.
Qed.

(** Example: Filter(even) and Map(+10) in turn on 1, 2, 3, 4, 5. *)
Definition even_pipe : pipe nat nat := PThen (SFilter Zero_nat (pure_map Nat.even) tt) PEnd.
Definition plus_pipe : pipe nat nat := PThen (SMap Zero_nat (pure_map (Nat.add 10)) tt) PEnd.
Theorem C117_ex : gives (slice_gen [1; 2; 3; 4; 5]) 0 ([1; 2; 3; 4; 5], Some EOI) /\
  (exists s', two even_pipe plus_pipe (next (slice_gen [1; 2; 3; 4; 5])) [true; false; true; false; true; false] 9
     (pipe_init _ _ (ofIter 0)) (pipe_init _ _ (ofIter 0)) (ofIter 0) =
     Done (([(2, None); (4, None); (0, Some EOI)], [(13, None); (15, None); (0, Some EOI)]), s')) /\
  share true [true; true; false; true; false] [1; 2; 3; 4; 5] = [1; 2; 4] /\ share false [true; true; false; true; false] [1; 2; 3; 4; 5] = [3; 5].
Proof.
  split; [eexists; split; [apply slice_emits|]; intros e' [= <-]; eexists; apply slice_fails|]. split; [eexists; vm_compute; reflexivity|split; reflexivity].
Qed.
(** The same with peeks before, between and after the calls. *)
Theorem C117_ex_peeks : exists s', two_peeks even_pipe plus_pipe (slice_gen [1; 2; 3; 4; 5]) [None; Some true; None; None; Some false; Some true; None; Some false; None; Some true; None; Some false; None] 9
     (pipe_init _ _ (ofIter 0)) (pipe_init _ _ (ofIter 0)) (ofIter 0) =
     Done (([(2, None); (4, None); (0, Some EOI)], [(13, None); (15, None); (0, Some EOI)]), s').
Proof. eexists. vm_compute. reflexivity. Qed.
Theorem C117_ex_batches : exists s', batches 2 (next (slice_gen [1; 2; 3; 4; 5])) 4 9 (ofIter 0) = Done ([[1; 2]; [3; 4]; [5]; []], None, s').
Proof. eexists. vm_compute. reflexivity. Qed.
