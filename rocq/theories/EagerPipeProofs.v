From Coq Require Import Permutation Sorting.
From Verif Require Import Base Iter IterSpec IterProofs IterGen IterGenProofs Slice Stream StreamSpec StreamProofs StreamProofs2 Pipe PipeSpec PipeProofs Parallel ParallelSpec EagerPipe EagerPipeSpec.

(** ** The eager iterators *)
Section Eager.
  Context {T : Type} {ZT : Zero T}.

  Lemma eager_gives (l : list T) e : gives (eager_next (match e with EOI => EagerSlice l | _ => EagerError e end))
    (eager_init (match e with EOI => EagerSlice l | _ => EagerError e end)) (match e with EOI => l | _ => [] end, Some e).
  Proof.
    assert (K : forall x (l' : list T) e', yields (eager_next x) (eager_init x) l' e' -> gives (eager_next x) (eager_init x) (l', Some e')).
    { intros x l' e' (s & E & St). exists s. split; [exact E|]. cbn. intros e0 [= <-]. inversion St; subst. eexists. eexists. eassumption. }
    destruct e; apply K; try apply eager_error_yields. apply eager_slice_yields.
  Qed.

  Lemma inl_emits_inv (slc : list T) st l st' : emits (eager_next (EagerSlice slc)) st l st' -> forall it, st = inl it ->
    exists it', st' = inl it' /\ emits (next (slice_gen slc)) it l it'.
  Proof.
    induction 1 as [st|st v s1 l s2 R E IH]; intros it ->; [exists it; split; [reflexivity|constructor]|].
    destruct R as [n R]. assert (K : exists it1, s1 = inl it1 /\ returns (next (slice_gen slc)) it (v, None) it1).
    { pose proof (R n (le_n n)) as R0. unfold eager_next in R0. destruct (next (slice_gen slc) n it) as [[r i]| |] eqn:E0; try discriminate.
      cbn [obind] in R0. exists i. split; [congruence|]. exists n. intros m Hm. specialize (R m Hm). unfold eager_next in R.
      destruct (next (slice_gen slc) m it) as [[r' i']| |]; try discriminate. cbn [obind] in R. congruence. }
    destruct K as (it1 & -> & R1). destruct (IH it1 eq_refl) as (it' & -> & E'). exists it'. split; [reflexivity|]. econstructor; eassumption.
  Qed.
  Lemma inr_emits_inv (e : err) st l st' : emits (eager_next (T := T) (EagerError e)) st l st' -> forall it, st = inr it ->
    exists it', st' = inr it' /\ emits (next (set_error_gen (next (novalue_gen (T := T))) e)) it l it'.
  Proof.
    induction 1 as [st|st v s1 l s2 R E IH]; intros it ->; [exists it; split; [reflexivity|constructor]|].
    destruct R as [n R]. assert (K : exists it1, s1 = inr it1 /\ returns (next (set_error_gen (next (novalue_gen (T := T))) e)) it (v, None) it1).
    { pose proof (R n (le_n n)) as R0. unfold eager_next in R0. destruct (next (set_error_gen _ e) n it) as [[r i]| |] eqn:E0; try discriminate.
      cbn [obind] in R0. exists i. split; [congruence|]. exists n. intros m Hm. specialize (R m Hm). unfold eager_next in R.
      destruct (next (set_error_gen _ e) m it) as [[r' i']| |]; try discriminate. cbn [obind] in R. congruence. }
    destruct K as (it1 & -> & R1). destruct (IH it1 eq_refl) as (it' & -> & E'). exists it'. split; [reflexivity|]. econstructor; eassumption.
  Qed.

  Lemma eager_settled {S0} (it : iterator S0 T) x st : settled ZT (eager_iter ZT it x st).
  Proof.
    intros l s1 e s2. cbn [eager_iter it_next it_init]. intros E F.
    destruct x as [slc|e0]; cbn [eager_init] in E.
    - destruct (inl_emits_inv slc _ _ _ E _ eq_refl) as (i1 & -> & E1). destruct F as [v [n F]].
      assert (K : exists i2, s2 = inl i2 /\ returns (next (slice_gen slc)) i1 (v, Some e) i2).
      { pose proof (F n (le_n n)) as R0. unfold eager_next in R0. destruct (next (slice_gen slc) n i1) as [[r i]| |] eqn:E0; try discriminate.
        cbn [obind] in R0. exists i. split; [congruence|]. exists n. intros m Hm. specialize (F m Hm). unfold eager_next in F.
        destruct (next (slice_gen slc) m i1) as [[r' i']| |]; try discriminate. cbn [obind] in F. congruence. }
      destruct K as (i2 & -> & R). destruct (next_settles ZT (slice_gen slc) _ _ _ _ _ E1 (ex_intro _ v R)) as [[a A] [b B]].
      split; [exists a|exists b]; intros m Hm; unfold eager_next; [rewrite (A m Hm)|rewrite (B m Hm)]; reflexivity.
    - destruct (inr_emits_inv e0 _ _ _ E _ eq_refl) as (i1 & -> & E1). destruct F as [v [n F]].
      assert (K : exists i2, s2 = inr i2 /\ returns (next (set_error_gen (next (novalue_gen (T := T))) e0)) i1 (v, Some e) i2).
      { pose proof (F n (le_n n)) as R0. unfold eager_next in R0. destruct (next (set_error_gen _ e0) n i1) as [[r i]| |] eqn:E0; try discriminate.
        cbn [obind] in R0. exists i. split; [congruence|]. exists n. intros m Hm. specialize (F m Hm). unfold eager_next in F.
        destruct (next (set_error_gen _ e0) m i1) as [[r' i']| |]; try discriminate. cbn [obind] in F. congruence. }
      destruct K as (i2 & -> & R). destruct (next_settles ZT _ _ _ _ _ _ E1 (ex_intro _ v R)) as [[a A] [b B]].
      split; [exists a|exists b]; intros m Hm; unfold eager_next; [rewrite (A m Hm)|rewrite (B m Hm)]; reflexivity.
  Qed.

  (** what the eager stages make of their source *)
  Lemma drained {S0} (it : iterator S0 T) l e s1 s2 (h : list T -> list T) (F : nat -> it_state it -> outcome (eager T * it_state it)) :
    emits (it_next it) (it_init it) l s1 -> fails (it_next it) s1 e s2 ->
    (forall m s, F m s = let! (r, i) := next (st_to_slice (it_next it)) m (ofIter (false, s)) in
       match r with (_, Some e) => Done (EagerError e, snd (src i)) | (slc, None) => Done (EagerSlice (h slc), snd (src i)) end) ->
    exists n, forall m, n <= m -> F m (it_init it) = Done (match e with EOI => EagerSlice (h l) | _ => EagerError e end, s2).
  Proof.
    intros E Fl HF. assert (D : e = EOI \/ e <> EOI) by (destruct e; (left; reflexivity) || (right; discriminate)). destruct D as [->|N].
    - destruct (to_slice_next _ _ _ _ _ E Fl) as [n R]. exists n. intros m Hm. rewrite HF, (R m Hm). reflexivity.
    - destruct (to_slice_next_err _ _ _ _ _ _ E Fl N) as [n R]. exists n. intros m Hm. rewrite HF, (R m Hm). cbn [obind src dead snd]. destruct e; congruence || reflexivity.
  Qed.

  Lemma eager_reads {S0 A0} (it : iterator S0 T) (f : stepfn S0 A0) s0 tr0 tr dm (h : list T -> list T) out
    (F : nat -> it_state it -> outcome (eager T * it_state it)) :
    (forall m s, F m s = let! (r, i) := next (st_to_slice (it_next it)) m (ofIter (false, s)) in
       match r with (_, Some e) => Done (EagerError e, snd (src i)) | (slc, None) => Done (EagerSlice (h slc), snd (src i)) end) ->
    reads it f s0 tr0 tr dm -> rearranged h tr = Some out ->
    exists x st, (exists n, forall m, n <= m -> F m (it_init it) = Done (x, st)) /\
      reads (eager_iter ZT it x st) f s0 tr0 out (fun _ => dm (Datatypes.S (length (fst tr)))).
  Proof.
    intros HF [G D] RE. destruct tr as [l [e|]]; [|discriminate].
    destruct (D (Datatypes.S (length l))) as (st & P & Q). { right. split; [reflexivity|discriminate]. }
    destruct (pulls_split _ _ _ _ _ P) as (s1 & E & Fl).
    exists (match e with EOI => EagerSlice (h l) | _ => EagerError e end), st. split; [apply (drained it l e s1 st h F E Fl HF)|].
    assert (OUT : out = (match e with EOI => h l | _ => [] end, Some e)) by (unfold rearranged in RE; cbn in RE; destruct e; congruence). subst out.
    pose proof (eager_gives (h l) e) as EG. split; [exact EG|].
    intros k Cv. destruct (gives_pulls _ _ _ _ k EG Cv) as [st' P']. exists st'. split; [exact P'|exact Q].
  Qed.
End Eager.

Lemma reverse_shape {S0 T} (ZT : Zero T) (it : iterator S0 T) m s : st_reverse (it_next it) m s =
  let! (r, i) := next (st_to_slice (it_next it)) m (ofIter (false, s)) in
  match r with (_, Some e) => Done (EagerError e, snd (src i)) | (slc, None) => Done (EagerSlice (rev slc), snd (src i)) end.
Proof.
  unfold st_reverse. destruct (next _ m _) as [[[slc [e|]] i]| |]; try reflexivity. cbn [obind]. rewrite slice_reverse_spec. reflexivity.
Qed.

Lemma settled_stage {S0 A B} (g : stage A B) (it : iterator S0 A) : settled (stage_zero g) (apply_stage g it).
Proof. intros l st e st'. cbn. apply next_settles. Qed.
Lemma settled_source {S0 A} (za : Zero A) (f : stepfn S0 A) s : settled za (source za f s).
Proof. intros l st e st'. cbn. apply next_settles. Qed.

(** ** Parallel *)
Lemma err_slice_gives {T} (ZT : Zero T) e : gives (eager_next (T := T) (EagerError e)) (eager_init (EagerError e)) ([], Some e).
Proof.
  destruct (eager_error_yields (T := T) e) as (s & E & St). exists s. split; [exact E|]. cbn. intros e0 [= <-]. inversion St; subst. eexists. eexists. eassumption.
Qed.
Lemma yields_gives {S T} (ZT : Zero T) (f : stepfn S T) s l e : yields f s l e -> gives f s (l, Some e).
Proof. intros (s' & E & St). exists s'. split; [exact E|]. cbn. intros e0 [= <-]. inversion St; subst. eexists. eexists. eassumption. Qed.

Lemma par_gives {S0 A B} (za : Zero A) (t : pipe A B) (it : iterator S0 A) x st :
  gives (it_next (par_iter za t it x st)) (it_init (par_iter za t it x st)) (ran t x).
Proof.
  destruct x as [e| |x|out]; cbn [par_iter it_next it_init ran].
  - exact (err_slice_gives (pipe_zero t za) e).
  - apply (yields_gives (pipe_zero t za)). exact (@novalue_yields B (pipe_zero t za)).
  - assert (G : gives (single_gen (H := za) x) false ([x], Some EOI)).
    { exists true. split; [econstructor; [|constructor]|]; [exists 0; reflexivity|]. cbn. intros e [= <-]. exists true, zv. exists 0. reflexivity. }
    exact (proj1 (pipe_reads t _ _ _ (source za (single_gen (H := za) x) false) _ _ (source_reads za _ _ _ G))).
  - exact (eager_gives (ZT := pipe_zero t za) out EOI).
Qed.
Lemma par_settled {S0 A B} (za : Zero A) (t : pipe A B) (it : iterator S0 A) x st : settled (pipe_zero t za) (par_iter za t it x st).
Proof.
  destruct x as [e| |x|out].
  - exact (eager_settled (ZT := pipe_zero t za) (mkIterator unit (fun _ _ => OutOfFuel) tt (fun _ => it_source it st)) (EagerError e) tt).
  - exact (settled_source (pipe_zero t za) (novalue_gen (H := pipe_zero t za)) tt).
  - exact (pipe_settled t za (single_gen (H := za) x) false).
  - exact (eager_settled (ZT := pipe_zero t za) (mkIterator unit (fun _ _ => OutOfFuel) tt (fun _ => it_source it st)) (EagerSlice out) tt).
Qed.
Lemma par_source {S0 A B} (za : Zero A) (t : pipe A B) (it : iterator S0 A) x st s : it_source (par_iter za t it x st) s = it_source it st.
Proof. destruct x; reflexivity. Qed.

Lemma par_reads {S0 A0 A B} (za : Zero A) (t : pipe A B) run (it : iterator S0 A) (f : stepfn S0 A0) s0 tr0 tr dm out :
  reads it f s0 tr0 tr dm -> ran_on t run tr = Some out ->
  exists x st, (exists n, forall m, n <= m -> apply_parallel za t run m it = Done (par_iter za t it x st)) /\
    reads (par_iter za t it x st) f s0 tr0 out (fun _ => dm (Datatypes.S (length (fst tr)))).
Proof.
  intros [G D] RE. destruct tr as [l [e|]]; [|discriminate].
  destruct (D (Datatypes.S (length l))) as (st & P & Q). { right. split; [reflexivity|discriminate]. }
  destruct (pulls_split _ _ _ _ _ P) as (s1 & E & Fl).
  assert (K : exists n, forall m, n <= m -> apply_parallel za t run m it = Done (par_iter za t it (match e with EOI => run l | _ => PError e end) st)).
  { assert (X : e = EOI \/ e <> EOI) by (destruct e; (left; reflexivity) || (right; discriminate)). unfold apply_parallel. destruct X as [->|N].
    - destruct (to_slice_next _ _ _ _ _ E Fl) as [n R]. exists n. intros m Hm. rewrite (R m Hm). reflexivity.
    - destruct (to_slice_next_err _ _ _ _ _ _ E Fl N) as [n R]. exists n. intros m Hm. rewrite (R m Hm). cbn [obind src dead snd]. destruct e; congruence || reflexivity. }
  exists (match e with EOI => run l | _ => PError e end), st. split; [exact K|].
  assert (OUT : out = ran t (match e with EOI => run l | _ => PError e end)) by (unfold ran_on in RE; cbn [fst snd] in RE; destruct e; cbn [ran]; congruence). subst out.
  pose proof (par_gives za t it (match e with EOI => run l | _ => PError e end) st) as EG. split; [exact EG|].
  intros k Cv. destruct (ran t (match e with EOI => run l | _ => PError e end)) as [l' o'].
  destruct (gives_pulls _ _ _ _ k EG Cv) as [st' P']. exists st'. split; [exact P'|]. rewrite par_source. exact Q.
Qed.

Lemma epipe_reads {S0 A0 A B} (p : epipe A B) (f : stepfn S0 A0) s0 tr0 : forall (za : Zero A) (it : iterator S0 A) tr dm out,
  reads it f s0 tr0 tr dm -> settled za it -> emeaning p tr = Some out ->
  exists it', builds p it it' /\ reads it' f s0 tr0 out (fun k => dm (edemand p tr k)) /\ settled (epipe_zero p za) it'.
Proof.
  induction p as [A|A B C g p IH]; intros za it tr dm out R St M.
  - cbn in M. injection M as <-. exists it. split; [exists 0; reflexivity|]. split; assumption.
  - destruct g as [A B g|A z|A z sort|A B z t run]; cbn [emeaning edemand estage_meaning estage_demand] in M |- *.
    + destruct (IH (stage_zero g) (apply_stage g it) _ _ _ (stage_reads g it f s0 tr0 tr dm R) (settled_stage g it) M) as (it' & Bd & R' & S').
      exists it'. split; [exact Bd|]. split; assumption.
    + destruct (rearranged (@rev A) tr) as [tr'|] eqn:RE; [|discriminate].
      destruct (eager_reads (ZT := z) it f s0 tr0 tr dm (@rev A) tr' (st_reverse (it_next it)) (fun m s => reverse_shape z it m s) R RE) as (x & st & [n HN] & R1).
      destruct (IH z (eager_iter z it x st) _ _ _ R1 (eager_settled it x st) M) as (it' & [n' Bd] & R' & S').
      exists it'. split; [|split; assumption]. exists (n + n'). intros m Hm. cbn [apply_epipe apply_estage]. rewrite (HN m ltac:(lia)). cbn [obind]. apply Bd. lia.
    + destruct (rearranged sort tr) as [tr'|] eqn:RE; [|discriminate].
      destruct (eager_reads (ZT := z) it f s0 tr0 tr dm sort tr' (st_sort (it_next it) sort) (fun m s => eq_refl) R RE) as (x & st & [n HN] & R1).
      destruct (IH z (eager_iter z it x st) _ _ _ R1 (eager_settled it x st) M) as (it' & [n' Bd] & R' & S').
      exists it'. split; [|split; assumption]. exists (n + n'). intros m Hm. cbn [apply_epipe apply_estage]. rewrite (HN m ltac:(lia)). cbn [obind]. apply Bd. lia.    + destruct (ran_on t run tr) as [tr'|] eqn:RE; [|discriminate].
      destruct (par_reads z t run it f s0 tr0 tr dm tr' R RE) as (x & st & [n HN] & R1).
      destruct (IH (pipe_zero t z) (par_iter z t it x st) _ _ _ R1 (par_settled z t it x st) M) as (it' & [n' Bd] & R' & S').
      exists it'. split; [|split; assumption]. exists (n + n'). intros m Hm. cbn [apply_epipe apply_estage]. rewrite (HN m ltac:(lia)). cbn [obind]. apply Bd. lia.
Qed.

Lemma stage_meaning_ends {A B} (g : stage A B) tr e : snd tr = Some e -> exists e', snd (stage_meaning g tr) = Some e'.
Proof. exact (meaning_ends (PThen g PEnd) tr e). Qed.

Lemma emeaning_total {A B} (p : epipe A B) : forall tr e, snd tr = Some e -> exists out e', emeaning p tr = Some out /\ snd out = Some e'.
Proof.
  induction p as [A|A B C g p IH]; intros tr e H; [cbn; eauto|]. cbn. destruct g as [A B g|A z|A z sort|A B z t run]; cbn [estage_meaning].
  - destruct (stage_meaning_ends g tr e H) as [e' H']. exact (IH _ _ H').
  - unfold rearranged. rewrite H. destruct e; eapply IH; reflexivity.
  - unfold rearranged. rewrite H. destruct e; eapply IH; reflexivity.  - unfold ran_on. rewrite H. destruct e; try (eapply IH; reflexivity). destruct (run (fst tr)) as [e| |x|out]; cbn [ran]; try (eapply IH; reflexivity).
    destruct (meaning_ends t ([x], Some EOI) EOI eq_refl) as [e' H']. exact (IH _ _ H').
Qed.

(** ** Endless sources *)
Lemma endless_next {S T} (ZT : Zero T) (f : stepfn S T) s : endless f s -> endless (next f) (ofIter s).
Proof.
  intros (inv & I & K). exists (fun it => fn_live it = true /\ buffer it = [] /\ inv (src it)). split; [split; [|split]; [reflexivity|reflexivity|exact I]|].
  intros fuel it r it' (L & B & V) E. unfold next in E. rewrite B, L in E. cbn [length Nat.sub nth_error] in E.
  destruct (f fuel (src it)) as [[[v [e|]] s']| |] eqn:F; cbn [obind] in E; try discriminate; destruct (K _ _ _ _ V F) as [N V']; [discriminate|].
  injection E as <- <-. split; [reflexivity|]. split; [reflexivity|]. split; [reflexivity|exact V'].
Qed.

Section Loop.
  Context {S T Acc R : Type} (nx : stepfn S T) (inv : S -> Prop).
  Hypothesis K : forall fuel s r s', inv s -> nx fuel s = Done (r, s') -> snd r = None /\ inv s'.
  Lemma loop_inv (body : Acc -> T -> outcome (Acc + R)) onerr fuel : forall loop a s res s', inv s ->
    pull_loop nx body onerr loop fuel a s = Done (res, s') -> inv s' /\ exists a' v, body a' v = Done (inr res).
  Proof.
    induction loop as [|loop IH]; intros a s res s' I E; [discriminate|]. cbn [pull_loop] in E.
    destruct (nx fuel s) as [[[v [e|]] s1]| |] eqn:F; cbn [obind] in E; try discriminate; destruct (K _ _ _ _ I F) as [N I1]; [discriminate|].
    destruct (body a v) as [[a'|r]| |] eqn:Bd; cbn [obind] in E; try discriminate; [exact (IH _ _ _ _ I1 E)|].
    injection E as <- <-. split; [exact I1|]. eauto.
  Qed.
End Loop.
Lemma reduce_loop_never {S T U} (nx : stepfn S T) (inv : S -> Prop) (K : forall fuel s r s', inv s -> nx fuel s = Done (r, s') -> snd r = None /\ inv s')
  (zu : Zero U) (f : U -> T -> U) acc fuel s x : inv s -> reduce_loop nx f acc fuel s <> Done x.
Proof.
  intros I E. unfold reduce_loop in E. destruct (pull_loop _ _ _ _ _ _ _) as [[r s']| |] eqn:P; try discriminate.
  destruct (loop_inv nx inv K _ _ _ _ _ _ _ _ I P) as (_ & a & v & X). discriminate.
Qed.

Lemma endless_stage {A B} (g : stage A B) : may_cut g = false -> forall S (nx : stepfn S A) s, endless nx s -> endless (stage_fn g nx) (stage_init g s).
Proof.
  destruct g; cbn [may_cut]; try discriminate; intros _ S nx s (inv & I & K).
  - (* Map *) exists (fun st => inv (fst st)). split; [exact I|]. intros fuel [s1 c] r [s2 c2] V E. cbn in E, V |- *. unfold st_map in E.
    destruct (nx fuel s1) as [[[v [e|]] s']| |] eqn:F; cbn [obind] in E; try discriminate; destruct (K _ _ _ _ V F) as [N V']; [discriminate|].
    destruct (f c v). injection E as <- <- <-. split; [reflexivity|exact V'].
  - (* Filter *) exists (fun st => inv (fst st)). split; [exact I|]. intros fuel [s1 c] r [s2 c2] V E. cbn in E, V |- *. unfold st_filter in E.
    destruct (pull_loop _ _ _ _ _ _ _) as [[[r1 c1] s']| |] eqn:P; cbn [obind] in E; try discriminate.
    destruct (loop_inv nx inv K _ _ _ _ _ _ _ _ V P) as (V' & a & v & X). revert X; destruct (p a v) as [[|] c']; intros X; [|discriminate X]; injection X as <- <-.
    cbn in E. injection E as <- <- <-. split; [reflexivity|exact V'].
  - (* Peek *) exists (fun st => inv (fst st)). split; [exact I|]. intros fuel [s1 c] r [s2 c2] V E. cbn in E, V |- *. unfold st_peek in E.
    destruct (nx fuel s1) as [[[v [e|]] s']| |] eqn:F; cbn [obind] in E; try discriminate; destruct (K _ _ _ _ V F) as [N V']; [discriminate|].
    injection E as <- <- <-. split; [reflexivity|exact V'].
  - (* Skip *) exists (fun st => inv (snd st)). split; [exact I|]. intros fuel [k s1] r [k2 s2] V E. cbn in E, V |- *. unfold st_skip in E.
    assert (L : forall k s e st, inv s -> skip_loop nx k fuel s = Done (e, st) -> e = None /\ inv (snd st)).
    { clear -K. induction k as [|k IH]; intros s e st V E; cbn in E; [injection E as <- <-; split; [reflexivity|exact V]|].
      destruct (nx fuel s) as [[[v [e'|]] s']| |] eqn:F; cbn [obind] in E; try discriminate; destruct (K _ _ _ _ V F) as [N V']; [discriminate|]. exact (IH _ _ _ V' E). }
    destruct (skip_loop nx k fuel s1) as [[e st]| |] eqn:P; cbn [obind] in E; try discriminate. destruct (L _ _ _ _ V P) as [-> V1].
    destruct (nx fuel (snd st)) as [[[v [e'|]] s']| |] eqn:F; cbn [obind] in E; try discriminate; destruct (K _ _ _ _ V1 F) as [N V']; [discriminate|].
    injection E as <- <- <-. split; [reflexivity|exact V'].
  - (* ReduceTo *) exists (fun st => fst st = false /\ inv (snd st)). split; [split; [reflexivity|exact I]|]. intros fuel [d s1] r st [D V] E. cbn in D, V. subst d. exfalso. cbn in E. unfold st_reduce_to in E.
    destruct identity as [|id ids]; destruct (nx fuel s1) as [[[v [e|]] s']| |] eqn:F; cbn [obind] in E; try discriminate; destruct (K _ _ _ _ V F) as [N V']; try discriminate;
      exact (reduce_loop_never nx inv K zb f _ fuel s' _ V' E).
  - (* Reduce *) exists (fun st => fst st = false /\ inv (snd st)). split; [split; [reflexivity|exact I]|]. intros fuel [d s1] r st [D V] E. cbn in D, V. subst d. exfalso. cbn in E. unfold st_reduce in E.
    destruct identity as [|id ids]; destruct (nx fuel s1) as [[[v [e|]] s']| |] eqn:F; cbn [obind] in E; try discriminate; destruct (K _ _ _ _ V F) as [N V']; try discriminate;
      exact (reduce_loop_never nx inv K za f _ fuel s' _ V' E).
  - (* ToSlice *) exists (fun st => fst st = false /\ inv (snd st)). split; [split; [reflexivity|exact I]|]. intros fuel [d s1] r st [D V] E. cbn in D, V. subst d. exfalso. cbn in E. unfold st_to_slice in E.
    destruct (pull_loop _ _ _ _ _ _ _) as [[r1 s']| |] eqn:P; cbn [obind] in E; try discriminate.
    destruct (loop_inv nx inv K _ _ _ _ _ _ _ _ V P) as (V' & a & v & X). discriminate.
  - (* ExpandSlices *) exists (fun st => inv (snd st)). split; [exact I|]. intros fuel [[slc idx] s1] r [[slc2 idx2] s2] V E. cbn in E, V |- *. unfold st_expand_slices in E.
    destruct ((length slc =? 0) || (idx =? length slc)).
    + destruct (pull_loop _ _ _ _ _ _ _) as [[[slc'|e] s']| |] eqn:P; cbn [obind] in E; try discriminate;
        destruct (loop_inv nx inv K _ _ _ _ _ _ _ _ V P) as (V' & a & v & X); [|destruct v; discriminate X].
      destruct slc' as [|y slc']; cbn in E; [discriminate E|]. injection E as <- <- <- <-. split; [reflexivity|exact V'].
    + destruct (nth_error slc idx); [|discriminate]. injection E as <- <- <- <-. split; [reflexivity|exact V].  - (* ReduceToMap *) exists (fun st => fst st = false /\ inv (snd st)). split; [split; [reflexivity|exact I]|]. intros fuel [d s1] r st [D V] E. cbn in D, V. subst d. exfalso. cbn in E. unfold st_to_map in E.
    destruct (pull_loop _ _ _ _ _ _ _) as [[r1 s']| |] eqn:P; cbn [obind] in E; try discriminate.
    destruct (loop_inv nx inv K _ _ _ _ _ _ _ _ V P) as (V' & a & v & X). discriminate.
  - (* ExpandMaps *) exists (fun st => inv (snd st)). split; [exact I|]. intros fuel [m s1] r [m2 s2] V E. cbn in E, V |- *. unfold st_expand_maps in E.
    destruct m as [[|kv rest]|].
    2: { injection E as <- <- <-. split; [reflexivity|exact V]. }
    all: destruct (pull_loop _ _ _ _ _ _ _) as [[[[kv' rest']|e] s']| |] eqn:P; cbn [obind] in E; try discriminate;
      destruct (loop_inv nx inv K _ _ _ _ _ _ _ _ V P) as (V' & a & v & X); [|destruct v; discriminate X];
      injection E as <- <- <-; (split; [reflexivity|exact V']).
Qed.

Lemma drain_never {S T} (ZT : Zero T) (nx : stepfn S T) s m x : endless nx s -> next (st_to_slice nx) m (ofIter (false, s)) <> Done x.
Proof.
  intros (inv & I & K) E. unfold next in E. cbn in E. destruct (pull_loop _ _ _ _ _ _ _) as [[r1 s']| |] eqn:P; cbn [obind] in E; try discriminate.
  destruct (loop_inv nx inv K _ _ _ _ _ _ _ _ I P) as (V' & a & v & X). discriminate.
Qed.

Lemma never_built {S0 A B} (p : epipe A B) : forall (it : iterator S0 A), drains p = true -> endless (it_next it) (it_init it) ->
  forall m it', apply_epipe p m it <> Done it'.
Proof.
  induction p as [A|A B C g p IH]; intros it D E m it'; [discriminate|]. destruct g as [A B g|A z|A z sort|A B z t run]; cbn [drains] in D.
  - apply andb_prop in D as [D1 D2]. apply negb_true_iff in D1. cbn. apply (IH (apply_stage g it) D2). cbn. apply endless_next, endless_stage; assumption.
  - cbn. unfold st_reverse. destruct (next _ m _) as [x| |] eqn:N; try discriminate. destruct (drain_never z _ _ _ _ E N).
  - cbn. unfold st_sort. destruct (next _ m _) as [x| |] eqn:N; try discriminate. destruct (drain_never z _ _ _ _ E N).  - cbn. unfold apply_parallel. destruct (next _ m _) as [x| |] eqn:N; try discriminate. destruct (drain_never z _ _ _ _ E N).
Qed.
