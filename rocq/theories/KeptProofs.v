(** Slices of arguments that are kept: proofs. *)
From Coq Require Import ZifyNat.
From Verif Require Import Base Slice Iter IterGen IterSpec IterProofs IterGenProofs SliceMem SliceMemProofs FuncsFn Kept KeptSpec.
Open Scope nat_scope.

(** ** Functions *)
Lemma as_found_unique {T W R F : Type} (slot : W -> nat -> F) (call : list F -> T -> W -> R * W) t w fs gs :
  as_found slot call t w fs -> as_found slot call t w gs -> length fs = length gs -> fs = gs.
Proof.
  intros A B L. assert (K : forall k, firstn k fs = firstn k gs).
  { induction k as [|k IH]; [reflexivity|].
    destruct (nth_error fs k) as [f|] eqn:Ef.
    - destruct (nth_error gs k) as [g|] eqn:Eg; [|apply nth_error_None in Eg; assert (k < length fs) by (apply nth_error_Some; congruence); lia].
      pose proof (A k f Ef) as H1. pose proof (B k g Eg) as H2. rewrite IH in H1.
      assert (S1 : forall (l : list F) x, nth_error l k = Some x -> firstn (S k) l = firstn k l ++ [x]).
      { clear. induction k as [|k IH]; intros [|a l] x E; cbn in E; try discriminate; [injection E as ->; reflexivity|]. cbn [firstn app]. f_equal. exact (IH l x E). }
      rewrite (S1 fs f Ef), (S1 gs g Eg), IH. congruence.
    - apply nth_error_None in Ef. rewrite !firstn_all2 by lia. rewrite !firstn_all2 in IH by lia. exact IH. }
  pose proof (K (length fs)) as E. rewrite firstn_all in E. rewrite L, firstn_all in E. exact E.
Qed.

Section Functions.
  Context {T W : Type}.
  Lemma and_found (slot : W -> nat -> T -> W -> bool * W) n : forall i res t w, exists fs, length fs = n /\ and_live slot n i res t w = and_loop fs res t w /\
    forall k f, nth_error fs k = Some f -> f = slot (snd (and_loop (firstn k fs) res t w)) (i + k).
  Proof.
    induction n as [|n IH]; intros i res t w.
    - exists []. repeat split. intros [|k] f E; discriminate.
    - cbn [and_live]. destruct (slot w i t w) as [b w'] eqn:Es. destruct b; cbn [negb].
      + destruct (IH (i + 1) true t w') as (fs & L & E & F). exists (slot w i :: fs). split; [cbn; lia|]. split.
        * cbn [and_loop]. rewrite Es. cbn [negb]. exact E.
        * intros [|k] f N; cbn in N.
          -- injection N as <-. cbn. rewrite Nat.add_0_r. reflexivity.
          -- cbn [firstn and_loop]. rewrite Es. cbn [negb]. rewrite (F k f N). do 1 f_equal. lia.
      + exists (slot w i :: map (fun j => slot w' (i + S j)) (seq 0 n)). split; [cbn; rewrite map_length, seq_length; reflexivity|]. split.
        * cbn [and_loop]. rewrite Es. reflexivity.
        * intros [|k] f N; cbn in N.
          -- injection N as <-. cbn. rewrite Nat.add_0_r. reflexivity.
          -- cbn [firstn and_loop]. rewrite Es. cbn [negb snd]. rewrite nth_error_map in N.
             destruct (nth_error (seq 0 n) k) as [j|] eqn:Ej; [|discriminate]. cbn in N. injection N as <-.
             pose proof (nth_error_nth _ _ 0 Ej) as Ek. rewrite seq_nth in Ek by (rewrite <- (seq_length n 0); apply nth_error_Some; congruence).
             cbn in Ek. subst j. reflexivity.
  Qed.
  Lemma or_found (slot : W -> nat -> T -> W -> bool * W) n : forall i res t w, exists fs, length fs = n /\ or_live slot n i res t w = or_loop fs res t w /\
    forall k f, nth_error fs k = Some f -> f = slot (snd (or_loop (firstn k fs) res t w)) (i + k).
  Proof.
    induction n as [|n IH]; intros i res t w.
    - exists []. repeat split. intros [|k] f E; discriminate.
    - cbn [or_live]. destruct (slot w i t w) as [b w'] eqn:Es. destruct b.
      + exists (slot w i :: map (fun j => slot w' (i + S j)) (seq 0 n)). split; [cbn; rewrite map_length, seq_length; reflexivity|]. split.
        * cbn [or_loop]. rewrite Es. reflexivity.
        * intros [|k] f N; cbn in N.
          -- injection N as <-. cbn. rewrite Nat.add_0_r. reflexivity.
          -- cbn [firstn or_loop]. rewrite Es. cbn [snd]. rewrite nth_error_map in N.
             destruct (nth_error (seq 0 n) k) as [j|] eqn:Ej; [|discriminate]. cbn in N. injection N as <-.
             pose proof (nth_error_nth _ _ 0 Ej) as Ek. rewrite seq_nth in Ek by (rewrite <- (seq_length n 0); apply nth_error_Some; congruence).
             cbn in Ek. subst j. reflexivity.
      + destruct (IH (i + 1) false t w') as (fs & L & E & F). exists (slot w i :: fs). split; [cbn; lia|]. split.
        * cbn [or_loop]. rewrite Es. exact E.
        * intros [|k] f N; cbn in N.
          -- injection N as <-. cbn. rewrite Nat.add_0_r. reflexivity.
          -- cbn [firstn or_loop]. rewrite Es. rewrite (F k f N). do 1 f_equal. lia.
  Qed.
  Lemma compose_found (slot : W -> nat -> T -> W -> T * W) n : forall i t w, exists fs, length fs = n /\ compose_live slot n i t w = compose_loop t fs w /\
    forall k f, nth_error fs k = Some f -> f = slot (snd (compose_loop t (firstn k fs) w)) (i + k).
  Proof.
    induction n as [|n IH]; intros i t w.
    - exists []. repeat split. intros [|k] f E; discriminate.
    - cbn [compose_live]. destruct (slot w i t w) as [t' w'] eqn:Es.
      destruct (IH (i + 1) t' w') as (fs & L & E & F). exists (slot w i :: fs). split; [cbn; lia|]. split.
      + cbn [compose_loop]. rewrite Es. exact E.
      + intros [|k] f N; cbn in N.
        * injection N as <-. cbn. rewrite Nat.add_0_r. reflexivity.
        * cbn [firstn compose_loop]. rewrite Es. rewrite (F k f N). do 1 f_equal. lia.
  Qed.
End Functions.

(** ** In *)
Lemma sget_contents {T} (m : mem T) s i v : nth_error (contents m s) i = Some v -> sget m s i = Done v.
Proof. intros E. unfold sget. rewrite E. reflexivity. Qed.
Lemma in_live_spec {T} (eq : T -> T -> bool) (m : mem T) val t : valid m val -> forall n i, i + n = slen val ->
  in_live eq m val n i t = Done (existsb (eq t) (skipn i (contents m val))).
Proof.
  intros V. pose proof (contents_length m val V) as CL. induction n as [|n IH]; intros i Hi.
  - cbn. rewrite skipn_all2 by lia. reflexivity.
  - cbn [in_live]. destruct (nth_error (contents m val) i) as [v|] eqn:E; [|apply nth_error_None in E; lia].
    rewrite (sget_contents _ _ _ _ E). cbn [obind].
    assert (X : skipn i (contents m val) = v :: skipn (i + 1) (contents m val)).
    { clear -E. revert i E. generalize (contents m val). intros l. induction l as [|a l IH]; intros [|i] E; cbn in E; try discriminate.
      - injection E as <-. reflexivity.
      - cbn [skipn Nat.add]. exact (IH i E). }
    rewrite X. cbn [existsb]. destruct (eq t v); cbn [orb]; [reflexivity|]. apply IH. lia.
Qed.

(** ** InfiniteIterGen *)
Lemma iter_again {A} (f : A -> A) n x : Nat.iter (S n) f x = Nat.iter n f (f x).
Proof. induction n as [|n IH]; [reflexivity|]. change (f (Nat.iter (S n) f x) = f (Nat.iter n f (f x))). rewrite IH. reflexivity. Qed.
Section Infinite.
  Context {T : Type} {ZT : Zero T}.
  Variables (env : nat -> mem T) (f : T -> T).
  Lemma kept_infinite_tail lits acc n : slen lits = 0 -> forall c, exists st,
    emits (kept_infinite env f) (lits, acc, c) (map (fun i => Nat.iter (S i) f acc) (seq 0 n)) st.
  Proof.
    intros Z. revert acc. induction n as [|n IH]; intros acc c.
    - eexists. constructor.
    - destruct (IH (f acc) (c + 1)) as [st E]. exists st. cbn [seq map]. econstructor.
      + exists 0. intros m _. unfold kept_infinite. rewrite Z. cbn [Nat.ltb Nat.leb]. reflexivity.
      + rewrite <- seq_shift, map_map. erewrite map_ext; [exact E|]. intros i. exact (iter_again f (S i) acc).
  Qed.
  Lemma kept_infinite_lits acc n vs : forall lits c, (forall k, valid (env k) lits) -> slen lits = length vs ->
    (forall i v, nth_error vs i = Some v -> nth_error (contents (env (c + i)) lits) i = Some v) ->
    exists st, emits (kept_infinite env f) (lits, acc, c) (vs ++ map (fun i => Nat.iter (S i) f acc) (seq 0 n)) st.
  Proof.
    induction vs as [|v vs IH]; intros lits c V L N.
    - apply kept_infinite_tail. exact L.
    - cbn [app]. pose proof (N 0 v eq_refl) as N0. rewrite Nat.add_0_r in N0. cbn in L.
      destruct (Nat.ltb_spec 1 (slen lits)) as [H1|H1].
      + destruct (reslice_spec (env 0) lits 1 (slen lits) (V 0) ltac:(lia)) as (s' & R & _ & _ & Ls & _ & _).
        assert (G : forall m : mem T, valid m lits -> contents m s' = skipn 1 (contents m lits) /\ valid m s').
        { intros m Vm. destruct (reslice_spec m lits 1 (slen lits) Vm ltac:(lia)) as (s2 & R2 & C2 & V2 & _).
          assert (s2 = s') by congruence. subst s2. split; [|exact V2]. rewrite C2. rewrite firstn_all2; [reflexivity|].
          rewrite skipn_length, (contents_length m lits Vm). lia. }
        destruct (IH s' (c + 1)) as [st E].
        { intros k. apply G, V. } { lia. }
        { intros i u Nu. rewrite (proj1 (G _ (V _))). rewrite nth_error_skipn'. replace (c + 1 + i) with (c + S i) by lia. apply N. exact Nu. }
        exists st. econstructor; [|exact E]. exists 0. intros m _. unfold kept_infinite.
        destruct (Nat.ltb_spec 0 (slen lits)); [|lia]. rewrite (sget_contents _ _ _ _ N0). cbn [obind].
        destruct (Nat.ltb_spec 1 (slen lits)); [|lia]. rewrite R. reflexivity.
      + destruct vs; [|cbn in L; lia]. destruct (kept_infinite_tail None acc n eq_refl (c + 1)) as [st E].
        exists st. econstructor; [|exact E]. exists 0. intros m _. unfold kept_infinite.
        destruct (Nat.ltb_spec 0 (slen lits)); [|lia]. rewrite (sget_contents _ _ _ _ N0). cbn [obind].
        destruct (Nat.ltb_spec 1 (slen lits)); [lia|]. reflexivity.
  Qed.
  (** what the literals turn out to be *)
  Lemma live_values lits k : (forall c, valid (env c) lits) -> k <= slen lits ->
    exists vs, length vs = k /\ forall i v, nth_error vs i = Some v -> nth_error (contents (env i) lits) i = Some v.
  Proof.
    intros V. induction k as [|k IH]; intros L; [exists []; split; [reflexivity|intros [|i]; discriminate]|].
    destruct IH as (vs & Lv & N); [lia|]. destruct (nth_error (contents (env k) lits) k) as [x|] eqn:E.
    - exists (vs ++ [x]). split; [rewrite app_length; cbn; lia|]. intros i v Ni.
      destruct (Nat.lt_ge_cases i (length vs)); [rewrite nth_error_app1 in Ni by lia; apply N; exact Ni|].
      rewrite nth_error_app2 in Ni by lia. destruct (i - length vs) as [|j] eqn:D; [|destruct j; discriminate]. cbn in Ni. assert (i = k) by lia. congruence.
    - apply nth_error_None in E. rewrite contents_length in E by apply V. lia.
  Qed.
End Infinite.

(** ** Concat *)
Section Concat.
  Context {H T : Type} {ZT : Zero T}.
  Variables (slot : H -> nat -> option (stepfn H T)) (n : nat).
  Let L := fun loop fuel st => concat_live slot n loop fuel st.

  (** the iterator a state reads from *)
  Definition reads_from (st : cstate (H := H) (T := T)) (i : nat) (f : stepfn H T) : Prop :=
    fst (fst (fst st)) = i /\ match snd (fst (fst st)) with Some g => g = f | None => slot (snd st) i = Some f end.
  Lemma live_value st i f v h' : i < n -> reads_from st i f -> returns f (snd st) (v, None) h' -> lruns L st (v, None) (i, Some f, None, h').
  Proof.
    destruct st as [[[j cur] e] h]. intros Hi [E G] [k Hk]. cbn in E, G. subst j. exists k, 1. intros m loop Hm Hl. destruct loop as [|loop]; [lia|].
    subst L. cbn [concat_live]. destruct (Nat.eqb_spec i n); [lia|].
    assert (X : match cur with Some _ => cur | None => slot h i end = Some f) by (destruct cur; congruence). rewrite X. cbn [snd] in Hk. rewrite Hk by lia. reflexivity.
  Qed.
  Lemma live_err st i f e h' : i < n -> reads_from st i f -> fails f (snd st) e h' -> e <> EOI -> lruns L st (zv, Some e) (n, Some f, Some e, h').
  Proof.
    destruct st as [[[j cur] e0] h]. intros Hi [E G] [v [k Hk]] Ne. cbn in E, G. subst j. exists k, 1. intros m loop Hm Hl. destruct loop as [|loop]; [lia|].
    subst L. cbn [concat_live]. destruct (Nat.eqb_spec i n); [lia|].
    assert (X : match cur with Some _ => cur | None => slot h i end = Some f) by (destruct cur; congruence). rewrite X. cbn [snd] in Hk. rewrite Hk by lia.
    cbn [obind]. destruct e; try reflexivity. congruence.
  Qed.
  Lemma live_eoi st i f h' : i < n -> reads_from st i f -> fails f (snd st) EOI h' -> ljump L st (i + 1, None, Some EOI, h').
  Proof.
    destruct st as [[[j cur] e0] h]. intros Hi [E G] [v [k Hk]]. cbn in E, G. subst j. exists k. intros m loop Hm.
    subst L. cbn [concat_live]. destruct (Nat.eqb_spec i n); [lia|].
    assert (X : match cur with Some _ => cur | None => slot h i end = Some f) by (destruct cur; congruence). rewrite X. cbn [snd] in Hk. rewrite Hk by lia. reflexivity.
  Qed.
  Lemma live_skip i e h : i < n -> slot h i = None -> ljump L (i, None, e, h) (i + 1, None, e, h).
  Proof.
    intros Hi N. exists 0. intros m loop Hm. subst L. cbn [concat_live]. destruct (Nat.eqb_spec i n); [lia|]. rewrite N. reflexivity.
  Qed.
  Lemma live_end cur e h : lruns L (n, cur, e, h) (zv, e) (n, cur, e, h).
  Proof. exists 0, 1. intros m loop _ Hl. destruct loop as [|loop]; [lia|]. subst L. cbn [concat_live]. rewrite Nat.eqb_refl. reflexivity. Qed.

  Inductive cyields : cstate (H := H) (T := T) -> list T -> err -> H -> Prop :=
  | cy_nil st e st' h : lruns L st (zv, Some e) st' -> snd st' = h -> cyields st [] e h
  | cy_cons st v st1 l e h : lruns L st (v, None) st1 -> cyields st1 l e h -> cyields st (v :: l) e h.
  Lemma cyields_jump st st1 l e h : ljump L st st1 -> cyields st1 l e h -> cyields st l e h.
  Proof.
    intros J Y. inversion Y; subst.
    - econstructor; [|reflexivity]. eapply ljump_runs; eauto.
    - econstructor; [|eassumption]. eapply ljump_runs; eauto.
  Qed.
  Lemma cyields_emits i f h l1 h1 l2 e hf : i < n -> emits f h l1 h1 ->
    (forall st, reads_from st i f -> snd st = h1 -> cyields st l2 e hf) -> forall st, reads_from st i f -> snd st = h -> cyields st (l1 ++ l2) e hf.
  Proof.
    intros Hi E K. induction E as [s|s v s1 l s2 R E IH]; intros st G Es.
    - apply K; assumption.
    - cbn [app]. econstructor. { eapply live_value; [exact Hi|exact G|]. rewrite Es. exact R. } apply IH; [exact K|split; reflexivity|reflexivity].
  Qed.
  Lemma live_yields i h l e h' : found_run slot n i h l e h' -> i <= n -> cyields (i, None, Some EOI, h) l e h'.
  Proof.
    induction 1 as [h|i h l e h' Hi N R IH|i f h l1 h1 h2 l2 e h3 Hi N E F R IH|i f h l1 h1 e h2 Hi N E F Ne]; intros _.
    - econstructor; [apply live_end|reflexivity].
    - eapply cyields_jump; [apply live_skip; assumption|]. replace (i + 1) with (S i) by lia. apply IH. lia.
    - refine (cyields_emits i f h l1 h1 l2 e h3 Hi E _ _ _ _); [|split; [reflexivity|exact N]|reflexivity].
      intros st G Es. eapply cyields_jump; [eapply live_eoi; [exact Hi|exact G|rewrite Es; exact F]|]. replace (i + 1) with (S i) by lia. apply IH. lia.
    - rewrite <- (app_nil_r l1). refine (cyields_emits i f h l1 h1 [] e h2 Hi E _ _ _ _); [|split; [reflexivity|exact N]|reflexivity].
      intros st G Es. econstructor; [eapply live_err; [exact Hi|exact G|rewrite Es; exact F|exact Ne]|reflexivity].
  Qed.
  Lemma cyields_spec st l e h : cyields st l e h ->
    exists st1 st2, emits (kept_concat slot n) st l st1 /\ fails (kept_concat slot n) st1 e st2 /\ snd st2 = h.
  Proof.
    induction 1 as [st e st' h R Hh|st v st1 l e h R Y IH].
    - exists st, st'. split; [constructor|]. split; auto. exists zv. apply lruns_returns in R. exact R.
    - destruct IH as (a & b & E & F & Hh). exists a, b. split; auto. econstructor; eauto. apply lruns_returns in R. exact R.
  Qed.

  (** a prefix of the values *)
  Inductive cpart : cstate (H := H) (T := T) -> list T -> Prop :=
  | cp_nil st : cpart st []
  | cp_cons st v st1 l : lruns L st (v, None) st1 -> cpart st1 l -> cpart st (v :: l).
  Lemma cpart_jump st st1 l : ljump L st st1 -> cpart st1 l -> cpart st l.
  Proof. intros J Y. inversion Y; subst; [constructor|]. econstructor; [|eassumption]. eapply ljump_runs; eauto. Qed.
  Lemma cpart_emits i f h l1 h1 l2 : i < n -> emits f h l1 h1 ->
    (forall st, reads_from st i f -> snd st = h1 -> cpart st l2) -> forall st, reads_from st i f -> snd st = h -> cpart st (l1 ++ l2).
  Proof.
    intros Hi E K. induction E as [s|s v s1 l s2 R E IH]; intros st G Es.
    - apply K; assumption.
    - cbn [app]. econstructor. { eapply live_value; [exact Hi|exact G|]. rewrite Es. exact R. } apply IH; [exact K|split; reflexivity|reflexivity].
  Qed.
  Lemma live_part i h l : found_part slot n i h l -> cpart (i, None, Some EOI, h) l.
  Proof.
    induction 1 as [i h l Hi N R IH|i f h l1 h1 h2 l2 Hi N E F R IH|i f h l1 h1 Hi N E].
    - eapply cpart_jump; [apply live_skip; assumption|]. replace (i + 1) with (S i) by lia. exact IH.
    - refine (cpart_emits i f h l1 h1 l2 Hi E _ _ _ _); [|split; [reflexivity|exact N]|reflexivity].
      intros st G Es. eapply cpart_jump; [eapply live_eoi; [exact Hi|exact G|rewrite Es; exact F]|]. replace (i + 1) with (S i) by lia. exact IH.
    - rewrite <- (app_nil_r l1). refine (cpart_emits i f h l1 h1 [] Hi E _ _ _ _); [|split; [reflexivity|exact N]|reflexivity].
      intros st G Es. constructor.
  Qed.
  Lemma cpart_spec st l : cpart st l -> exists st1, emits (kept_concat slot n) st l st1.
  Proof.
    induction 1 as [st|st v st1 l R Y IH]; [eexists; constructor|]. destruct IH as [a E]. exists a. econstructor; [|exact E]. apply lruns_returns in R. exact R.
  Qed.
End Concat.

Lemma found_fixed {H T} (its : list (option (stepfn H T))) h l e h' : forall i, i <= length its ->
  found_run (fun _ i => match nth_error its i with Some x => x | None => None end) (length its) i h l e h' <-> seq_run (skipn i its) h l e h'.
Proof.
  assert (X : forall i x, nth_error its i = Some x -> skipn i its = x :: skipn (S i) its).
  { induction its as [|a q IH]; intros [|i] x E; cbn in E; try discriminate; [injection E as ->; reflexivity|]. cbn [skipn]. exact (IH i x E). }
  intros i Hi. split.
  - intros R. clear Hi. induction R as [h|i h l e h' Hi N R IH|i f h l1 h1 h2 l2 e h3 Hi N E F R IH|i f h l1 h1 e h2 Hi N E F Ne].
    + rewrite skipn_all. constructor.
    + destruct (nth_error its i) as [x|] eqn:Ei; [|apply nth_error_None in Ei; lia]. subst x. rewrite (X i _ Ei). constructor. exact IH.
    + destruct (nth_error its i) as [x|] eqn:Ei; [|discriminate]. subst x. rewrite (X i _ Ei). econstructor; eauto.
    + destruct (nth_error its i) as [x|] eqn:Ei; [|discriminate]. subst x. rewrite (X i _ Ei). eapply seq_err; eauto.
  - intros R. remember (skipn i its) as q eqn:Eq. revert i Hi Eq.
    induction R as [h|q h l e h' R IH|f q h l1 h1 h2 l2 e h3 E F R IH|f q h l1 h1 e h2 E F Ne]; intros i Hi Eq.
    + assert (i = length its). { pose proof (f_equal (@length _) Eq) as Y. rewrite skipn_length in Y. cbn in Y. lia. } subst i. constructor.
    + destruct (nth_error its i) as [x|] eqn:Ei; [|apply nth_error_None in Ei; rewrite skipn_all2 in Eq by lia; discriminate].
      rewrite (X i x Ei) in Eq. injection Eq as Ex Eq. subst x. assert (i < length its) by (apply nth_error_Some; congruence).
      apply fr_nil; [assumption|rewrite Ei; reflexivity|]. apply IH; [lia|exact Eq].
    + destruct (nth_error its i) as [x|] eqn:Ei; [|apply nth_error_None in Ei; rewrite skipn_all2 in Eq by lia; discriminate].
      rewrite (X i x Ei) in Eq. injection Eq as Ex Eq. subst x. assert (i < length its) by (apply nth_error_Some; congruence).
      eapply fr_iter; [assumption|rewrite Ei; reflexivity|exact E|exact F|]. apply IH; [lia|exact Eq].
    + destruct (nth_error its i) as [x|] eqn:Ei; [|apply nth_error_None in Ei; rewrite skipn_all2 in Eq by lia; discriminate].
      rewrite (X i x Ei) in Eq. injection Eq as Ex Eq. subst x. assert (i < length its) by (apply nth_error_Some; congruence).
      eapply fr_err; [assumption|rewrite Ei; reflexivity|exact E|exact F|exact Ne].
Qed.

(** ** io *)
Lemma firstn_min {A} (l : list A) a b : length l <= b -> firstn (Nat.min a b) l = firstn a l.
Proof. intros L. destruct (Nat.le_ge_cases a b); [rewrite Nat.min_l by lia; reflexivity|]. rewrite Nat.min_r by lia. rewrite !firstn_all2 by lia. reflexivity. Qed.

Lemma firstn_again {A} n (l c : list A) : firstn n (firstn n l ++ c) = firstn n (l ++ c).
Proof.
  rewrite !firstn_app, firstn_firstn, Nat.min_id. f_equal. rewrite firstn_length.
  destruct (Nat.le_ge_cases n (length l)); [rewrite Nat.min_l by lia|rewrite Nat.min_r by lia; reflexivity].
  replace (n - n) with 0 by lia. replace (n - length l) with 0 by lia. reflexivity.
Qed.

Section ErrorWriter.
  Variables (ex : nat -> nat -> nat) (count : Z) (e : err) (base : nat).
  (** the state of an ErrorWriter *)
  Definition ok_writer (m : mem Z) (w : slice) : Prop := valid m w /\ (Z.of_nat (slen w) <= Z.max 0 count)%Z /\ scap w = Z.to_nat (Z.max 0 count) /\
    match w with Some h => arr h = base /\ off h = 0 | None => False end.
  Lemma write_step m w p : ok_writer m w -> valid m p -> exists r m' w',
    error_write_mem ex count e w p m = Done (r, (m', w')) /\ ok_writer m' w' /\
    contents m' w' = firstn (Z.to_nat (Z.max 0 count)) (contents m w ++ contents m p) /\ frame (spare w (slen w' - slen w)) m m' /\
    match w, w' with Some h, Some h' => arr h' = arr h /\ off h' = off h /\ len h <= len h' | None, None => True | _, _ => False end /\
    r = (if (Z.of_nat (slen w) =? count)%Z then (0%Z, Some e) else (if (count <? 0)%Z then 0%Z else Z.min (Z.of_nat (slen p)) (count - Z.of_nat (slen w)), None)).
  Proof.
    intros (V & LE & CA & BA) Vp. pose proof (contents_length m w V) as CL. pose proof (contents_length m p Vp) as PL. unfold error_write_mem.
    destruct (Z.eqb_spec (Z.of_nat (slen w)) count) as [E|E]; [|destruct (Z.ltb_spec count 0) as [N|N]].
    - exists (0%Z, Some e), m, w. split; [reflexivity|]. split; [repeat split; assumption|]. split; [|split; [apply frame_refl|split; [destruct w; auto|reflexivity]]].
      rewrite firstn_app, firstn_all2 by lia. replace (Z.to_nat (Z.max 0 count) - length (contents m w)) with 0 by lia. rewrite firstn_O, app_nil_r. reflexivity.
    - exists (0%Z, None), m, w. split; [reflexivity|]. split; [repeat split; assumption|]. split; [|split; [apply frame_refl|split; [destruct w; auto|reflexivity]]].
      replace (Z.to_nat (Z.max 0 count)) with 0 by lia. rewrite firstn_O. apply length_zero_iff_nil. lia.
    - set (k := Z.to_nat (Z.min (Z.of_nat (slen p)) (count - Z.of_nat (slen w)))).
      destruct (reslice_spec m p 0 k Vp ltac:(unfold k; lia)) as (src & R & C & _ & Ls & _). rewrite R. cbn [obind].
      rewrite Nat.sub_0_r in C, Ls. cbn [skipn] in C.
      pose proof (sappend_spec ex m w (contents m src) V) as SP. destruct (sappend ex m w (contents m src)) as [m' w'].
      destruct SP as (V' & C' & L' & F & K & _).
      assert (Lk : length (contents m src) = k) by (rewrite C, firstn_length; unfold k; lia).
      destruct (K ltac:(rewrite Lk; unfold k; lia)) as (SC & _ & HH).
      exists (Z.min (Z.of_nat (slen p)) (count - Z.of_nat (slen w)), None), m', w'. split; [reflexivity|].
      split; [split; [exact V'|split; [rewrite L', Lk; unfold k; lia|split; [congruence|]]]|].
      { destruct w as [h|], w' as [h'|]; try contradiction. destruct HH, BA. split; congruence. }
      split; [rewrite C', C, firstn_app; assert (firstn (Z.to_nat (Z.max 0 count)) (contents m w) = contents m w) as -> by (apply firstn_all2; lia)|].
      { f_equal. unfold k. rewrite CL. replace (Z.to_nat (Z.max 0 count)) with (Z.to_nat count) by lia. rewrite <- (firstn_min (contents m p) (Z.to_nat count - slen w) (slen p)) by lia. f_equal. lia. }
      split; [rewrite L'; replace (slen w + length (contents m src) - slen w) with (length (contents m src)) by lia; exact F|].
      split; [destruct w as [h|], w' as [h'|]; try contradiction; auto; destruct HH; cbn in L'; repeat split; auto; lia|reflexivity].
  Qed.
  Lemma writes_spec x ps y : writes_of ex count e base x ps y -> ok_writer (fst x) (snd x) ->
    ok_writer (fst y) (snd y) /\ contents (fst y) (snd y) = firstn (Z.to_nat (Z.max 0 count)) (contents (fst x) (snd x) ++ concat ps) /\
    contents (fst y) (snd x) = contents (fst x) (snd x).
  Proof.
    induction 1 as [x|m w p r x ps y Vp E R IH|m w m' ps y F R IH]; intros OK; cbn [fst snd] in *.
    - split; [exact OK|]. split; [|reflexivity]. cbn. rewrite app_nil_r, firstn_all2; [reflexivity|]. destruct OK as (V & LE & _).
      rewrite contents_length by exact V. lia.
    - destruct (write_step m w p OK Vp) as (r1 & m1 & w1 & E1 & OK1 & C1 & F1 & HH & _). assert (x = (m1, w1)) by congruence. subst x. cbn [fst snd] in IH.
      destruct (IH OK1) as (OKy & Cy & Ky). split; [exact OKy|]. split.
      + rewrite Cy, C1. cbn [concat]. rewrite app_assoc. apply firstn_again.
      + destruct w as [h|], w1 as [h1|]; try contradiction; [|reflexivity]. destruct HH as (A1 & A2 & A3).
        assert (X : forall m2 : mem Z, contents m2 (Some h) = firstn (len h) (contents m2 (Some h1))).
        { intros m2. unfold contents. rewrite A1, A2, firstn_firstn, Nat.min_l by lia. reflexivity. }
        rewrite X, Ky, <- X. eapply frame_contents; [exact F1|exact (proj1 OK)|]. intros a i Ci Si. cbn in Ci, Si. lia.
    - destruct OK as (V & LE & CA & BA). assert (OK1 : ok_writer m' w) by (split; [eapply frame_valid; eauto|auto]).
      assert (CE : contents m' w = contents m w). { eapply frame_contents; [exact F|exact V|]. intros a i Ci N. apply N. destruct w as [h|]; [|contradiction]. cbn in Ci |- *. destruct BA. lia. }
      destruct (IH OK1) as (OKy & Cy & Ky). rewrite CE in Cy, Ky. auto.
  Qed.
End ErrorWriter.
