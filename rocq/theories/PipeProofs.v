From Verif Require Import Base GoMap Iter IterSpec IterProofs Stream StreamSpec StreamProofs StreamProofs2 Pipe PipeSpec.

(** ** Pulls *)
Lemma pulls_det {S T} (f : stepfn S T) s tr n s1 : pulls f s tr n s1 -> forall s2, pulls f s tr n s2 -> s1 = s2.
Proof.
  induction 1 as [s tr|s v s1 l o n s2 R P IH|s e s1 R]; intros s3 Q; inversion Q; subst.
  - reflexivity.
  - match goal with A : returns f s _ _, B : returns f s _ _ |- _ => destruct (returns_det _ _ _ _ _ _ A B) as [E1 E2] end.
    subst. eauto.
  - destruct R as [v R]. match goal with A : fails f s _ _ |- _ => destruct A as [v' R'] end.
    destruct (returns_det _ _ _ _ _ _ R R') as [_ E]. exact E.
Qed.

Lemma pulls_covers {S T} (f : stepfn S T) s tr n s1 : pulls f s tr n s1 -> covers tr n.
Proof.
  induction 1 as [s tr|s v s1 l o n s2 R P IH|s e s1 R]; unfold covers in *; cbn [fst snd length] in *.
  - left. lia.
  - destruct IH as [IH | [IH N]]; [left; lia|right; split; [lia|exact N]].
  - right. split; [reflexivity|discriminate].
Qed.

Lemma gives_nil_err {S T} (f : stepfn S T) s e : gives f s ([], Some e) -> exists s', fails f s e s'.
Proof.
  intros (s' & E & F). cbn in *. inversion E; subst. exact (F e eq_refl).
Qed.

Lemma gives_cons {S T} (f : stepfn S T) s v l o : gives f s (v :: l, o) ->
  exists s1, returns f s (v, None) s1 /\ gives f s1 (l, o).
Proof.
  intros (s' & E & F). cbn in *. inversion E; subst. exists s1. split; [assumption|]. exists s'. split; assumption.
Qed.

Lemma gives_intro {S T} (f : stepfn S T) s v s1 l o :
  returns f s (v, None) s1 -> gives f s1 (l, o) -> gives f s (v :: l, o).
Proof.
  intros R (s' & E & F). exists s'. split; [econstructor; eassumption|exact F].
Qed.

Lemma gives_pulls {S T} (f : stepfn S T) l o : forall s n, gives f s (l, o) -> covers (l, o) n -> exists s', pulls f s (l, o) n s'.
Proof.
  induction l as [|v l IH]; intros s n G C.
  - destruct n as [|n]; [eexists; constructor|]. destruct C as [C | [C N]]; cbn in *; [lia|].
    destruct o as [e|]; [|congruence]. injection C as ->. destruct (gives_nil_err _ _ _ G) as [s' F].
    exists s'. constructor. exact F.
  - destruct n as [|n]; [eexists; constructor|]. destruct (gives_cons _ _ _ _ _ G) as (s1 & R & G1).
    destruct (IH s1 n G1) as [s' P].
    { destruct C as [C | [C N]]; cbn in *; [left; cbn; lia|right; cbn; split; [lia|exact N]]. }
    exists s'. econstructor; eassumption.
Qed.

Lemma pulls_gives {S T} (f : stepfn S T) l o : forall s,
  (forall n, covers (l, o) n -> exists s', pulls f s (l, o) n s') -> gives f s (l, o).
Proof.
  intros s Hall.
  assert (exists n s', (n = match o with Some _ => Datatypes.S (length l) | None => length l end) /\ pulls f s (l, o) n s')
    as (n & s' & En & P).
  { exists (match o with Some _ => Datatypes.S (length l) | None => length l end).
    destruct (Hall (match o with Some _ => Datatypes.S (length l) | None => length l end)) as [s' P].
    - destruct o; unfold covers; cbn; [right; split; [reflexivity|discriminate]|left; lia].
    - exists s'. split; [reflexivity|exact P]. }
  clear Hall. revert s n En P. induction l as [|v l IH]; intros s n En P.
  - destruct o as [e|].
    + subst n. inversion P; subst. exists s. split; [constructor|]. intros e' E. cbn in E. injection E as <-. eexists; eassumption.
    + exists s. split; [constructor|]. cbn. discriminate.
  - assert (exists n', n = Datatypes.S n' /\ n' = match o with Some _ => Datatypes.S (length l) | None => length l end)
      as (n' & -> & E') by (destruct o; eexists; split; [exact En|reflexivity|exact En|reflexivity]).
    inversion P; subst. eapply gives_intro; [eassumption|]. eapply IH; [|eassumption]. reflexivity.
Qed.

Lemma pulls_emits {S T} (f : stepfn S T) s l s' o : emits f s l s' -> pulls f s (l, o) (length l) s'.
Proof.
  induction 1; [constructor|]. cbn [length]. econstructor; eassumption.
Qed.

Lemma pulls_all {S T} (f : stepfn S T) s l s1 e s2 : emits f s l s1 -> fails f s1 e s2 ->
  pulls f s (l, Some e) (Datatypes.S (length l)) s2.
Proof.
  induction 1; intros F; [constructor; exact F|]. cbn [length]. econstructor; eauto.
Qed.

(** The iterator made from a closure goes through the states of the closure. *)
Lemma pulls_next {S T} (ZT : Zero T) (g : stepfn S T) s tr n s' : pulls g s tr n s' ->
  exists it, pulls (next g) (ofIter s) tr n it /\ src it = s' /\
    (forall e, snd tr = Some e -> n = Datatypes.S (length (fst tr)) -> it = dead s' e) /\
    (n <= length (fst tr) -> it = ofIter s').
Proof.
  induction 1 as [s tr|s v s1 l o n s2 R P IH|s e s1 R].
  - exists (ofIter s). repeat split; [constructor|]. intros e E N. lia.
  - destruct IH as (it & Q & E & D & L). exists it. split; [econstructor; [apply next_value; exact R|exact Q]|].
    split; [exact E|]. cbn [fst snd length] in *. split; [intros e He N; apply D; [exact He|lia]|intros N; apply L; lia].
  - exists (dead s1 e). split; [constructor; exists zv; apply next_error; exact R|]. split; [reflexivity|]. cbn.
    split; [intros e' E _; injection E as ->; reflexivity|lia].
Qed.

(** ** One stage: what its closure returns, and how far it has read *)
Definition stage_ok {A B S} (g : stage A B) (nx : stepfn S A) (s : S) (tr : trace A) : Prop :=
  forall k, covers (stage_meaning g tr) k ->
  exists st, pulls (stage_fn g nx) (stage_init g s) (stage_meaning g tr) k st /\
             pulls nx s tr (stage_demand g tr k) (stage_src g st).

Lemma covers_S {T} (v : T) l o k : covers (v :: l, o) (Datatypes.S k) -> covers (l, o) k.
Proof. unfold covers; cbn. intros [C | [C N]]; [left; lia|right; split; [lia|exact N]]. Qed.

Lemma covers_nil {T} (o : option err) k : covers (@nil T, o) (Datatypes.S k) -> k = 0 /\ exists e, o = Some e.
Proof. unfold covers; cbn. intros [C | [C N]]; [lia|]. destruct o as [e|]; [|congruence]. split; [lia|eauto]. Qed.

Section Stages.
  Context {S A : Type}.
  Variable nx : stepfn S A.

  Lemma map_fst_acc {B C} (f : C -> A -> B * C) c x l :
    fst (map_acc f c (x :: l)) = fst (f c x) :: fst (map_acc f (snd (f c x)) l).
  Proof. cbn. destruct (f c x) as [u c1]. cbn. destruct (map_acc f c1 l). reflexivity. Qed.

  Lemma filter_fst_acc {C} (p : C -> A -> bool * C) c x l :
    fst (filter_acc p c (x :: l)) =
    (if fst (p c x) then [x] else []) ++ fst (filter_acc p (snd (p c x)) l).
  Proof. cbn. destruct (p c x) as [b c1]. cbn. destruct (filter_acc p c1 l). destruct b; reflexivity. Qed.

  Lemma map_value {B C} (zb : Zero B) (f : C -> A -> B * C) c s v s1 : returns nx s (v, None) s1 ->
    returns (st_map nx f) (s, c) (fst (f c v), None) (s1, snd (f c v)).
  Proof.
    intros [n R]. exists n. intros m Hm. unfold st_map. rewrite (R m Hm). cbn. destruct (f c v). reflexivity.
  Qed.

  Lemma ok_map {B C} (zb : Zero B) (f : C -> A -> B * C) l o : forall c s, gives nx s (l, o) ->
    stage_ok (SMap zb f c) nx s (l, o).
  Proof.
    induction l as [|v l IH]; intros c s G k Cv; destruct k as [|k]; try (eexists; split; constructor).
    - destruct (covers_nil _ _ Cv) as (-> & e & E). cbn in E. subst o. destruct (gives_nil_err _ _ _ G) as [s' F].
      exists (s', c). split; [constructor; apply st_map_fails; exact F|constructor; exact F].
    - destruct (gives_cons _ _ _ _ _ G) as (s1 & R & G1).
      unfold stage_meaning in *. cbn [fst snd] in *. rewrite map_fst_acc in Cv |- *.
      destruct (IH (snd (f c v)) s1 G1 k) as (st & P & Q). { unfold stage_meaning. cbn [fst snd]. exact (covers_S _ _ _ _ Cv). }
      exists st. split; [econstructor; [apply map_value; exact R|exact P]|]. econstructor; [exact R|exact Q].
  Qed.

  Lemma map_error_value {B C} (zb : Zero B) (f : C -> A -> ret B * C) c s v s1 u c1 :
    returns nx s (v, None) s1 -> f c v = ((u, None), c1) ->
    returns (st_map_error nx f) (s, c) (u, None) (s1, c1).
  Proof.
    intros [n R] E. exists n. intros m Hm. unfold st_map_error. rewrite (R m Hm). cbn. rewrite E. reflexivity.
  Qed.

  Lemma ok_map_error {B C} (zb : Zero B) (f : C -> A -> ret B * C) l o : forall c s, gives nx s (l, o) ->
    stage_ok (SMapError zb f c) nx s (l, o).
  Proof.
    induction l as [|v l IH]; intros c s G k Cv; destruct k as [|k]; try (eexists; split; constructor).
    - destruct (covers_nil _ _ Cv) as (-> & e & E). cbn in E. subst o. destruct (gives_nil_err _ _ _ G) as [s' F].
      exists (s', c). split; [constructor; apply st_map_error_fails; exact F|constructor; exact F].
    - destruct (gives_cons _ _ _ _ _ G) as (s1 & R & G1).
      unfold stage_meaning in *. cbn [fst snd] in *. rewrite map_fst_acc in Cv |- *.
      destruct (f c v) as [[u [e|]] c1] eqn:Ef; cbn [fst snd cut_errors] in *.
      + destruct (covers_nil _ _ Cv) as (-> & _ & _). exists (s1, c1).
        split; [constructor; eapply st_map_error_reject; eassumption|]. cbn. econstructor; [exact R|constructor].
      + destruct (IH c1 s1 G1 k) as (st & P & Q).
        { unfold stage_meaning. cbn [fst snd]. apply covers_S in Cv.
          destruct (cut_errors _ _); exact Cv. }
        exists st. split; [|econstructor; [exact R|exact Q]].
        econstructor; [eapply map_error_value; eassumption|].
        unfold stage_meaning in P. cbn [fst snd] in P. destruct (cut_errors _ _). exact P.
  Qed.

  Lemma ok_filter_gen {C} (za : Zero A) (p : C -> A -> bool * C) l o : forall pre c0 s0 s k,
    emits nx s0 pre s -> fst (filter_acc p c0 pre) = [] -> gives nx s (l, o) ->
    covers (fst (filter_acc p (snd (filter_acc p c0 pre)) l), o) (Datatypes.S k) ->
    exists st, pulls (st_filter nx p) (s0, c0) (fst (filter_acc p (snd (filter_acc p c0 pre)) l), o) (Datatypes.S k) st /\
      pulls nx s (l, o) (filter_demand p (snd (filter_acc p c0 pre)) l (Datatypes.S k)) (fst st).
  Proof.
    induction l as [|v l IH]; intros pre c0 s0 s k E Z G Cv.
    - destruct (covers_nil _ _ Cv) as (-> & e & ->). destruct (gives_nil_err _ _ _ G) as [s' F].
      eexists. split; [constructor; eapply st_filter_fails; eassumption|]. cbn. constructor. exact F.
    - destruct (gives_cons _ _ _ _ _ G) as (s1 & R & G1).
      rewrite filter_fst_acc in Cv |- *. cbn [filter_demand].
      destruct (p (snd (filter_acc p c0 pre)) v) as [[|] c1] eqn:Ep; cbn [fst snd app] in *.
      + assert (H : returns (st_filter nx p) (s0, c0) (v, None) (s1, c1)) by (eapply st_filter_value; eassumption).
        destruct k as [|k].
        * exists (s1, c1). split; [econstructor; [exact H|constructor]|].
          econstructor; [exact R|]. destruct l; constructor.
        * apply covers_S in Cv. destruct (IH [] c1 s1 s1 k) as (st & P & Q); [constructor|reflexivity|exact G1|exact Cv|].
          exists st. split; [econstructor; [exact H|exact P]|]. econstructor; [exact R|exact Q].
      + destruct (IH (pre ++ [v]) c0 s0 s1 k) as (st & P & Q).
        * eapply emits_app; [exact E|apply emits_one; exact R].
        * rewrite filter_acc_app. cbn [fst snd filter_acc]. rewrite Z, Ep. reflexivity.
        * exact G1.
        * rewrite filter_acc_app. cbn [fst snd filter_acc]. rewrite Ep. exact Cv.
        * rewrite filter_acc_app in P, Q. cbn [fst snd filter_acc] in P, Q. rewrite Ep in P, Q. cbn [fst snd] in P, Q.
          exists st. split; [exact P|]. econstructor; [exact R|exact Q].
  Qed.

  Lemma ok_filter {C} (za : Zero A) (p : C -> A -> bool * C) l o c s : gives nx s (l, o) ->
    stage_ok (SFilter za p c) nx s (l, o).
  Proof.
    intros G k Cv. destruct k as [|k].
    - exists (s, c). split; [constructor|]. cbn. destruct l; constructor.
    - apply (ok_filter_gen za p l o [] c s s k); [constructor|reflexivity|exact G|exact Cv].
  Qed.

  Lemma peek_value {C} (za : Zero A) (f : C -> A -> C) c s v s1 : returns nx s (v, None) s1 ->
    returns (st_peek nx f) (s, c) (v, None) (s1, f c v).
  Proof.
    intros [n R]. exists n. intros m Hm. unfold st_peek. rewrite (R m Hm). reflexivity.
  Qed.

  Lemma ok_peek {C} (za : Zero A) (f : C -> A -> C) l o : forall c s, gives nx s (l, o) ->
    stage_ok (SPeek za f c) nx s (l, o).
  Proof.
    induction l as [|v l IH]; intros c s G k Cv; destruct k as [|k]; try (eexists; split; constructor).
    - destruct (covers_nil _ _ Cv) as (-> & e & E). cbn in E. subst o. destruct (gives_nil_err _ _ _ G) as [s' F].
      exists (s', c). split; [constructor; apply st_peek_fails; exact F|constructor; exact F].
    - destruct (gives_cons _ _ _ _ _ G) as (s1 & R & G1).
      destruct (IH (f c v) s1 G1 k) as (st & P & Q). { exact (covers_S _ _ _ _ Cv). }
      exists st. split; [econstructor; [apply peek_value; exact R|exact P]|]. econstructor; [exact R|exact Q].
  Qed.

  Lemma skip0_ok (za : Zero A) l o : forall s k, gives nx s (l, o) -> covers (l, o) k ->
    exists s', pulls (st_skip nx) (0, s) (l, o) k (0, s') /\ pulls nx s (l, o) k s'.
  Proof.
    induction l as [|v l IH]; intros s k G Cv; destruct k as [|k]; try (eexists; split; constructor).
    - destruct (covers_nil _ _ Cv) as (-> & e & ->). destruct (gives_nil_err _ _ _ G) as [s' F].
      exists s'. split; constructor; [apply skip0_fails; exact F|exact F].
    - destruct (gives_cons _ _ _ _ _ G) as (s1 & R & G1).
      destruct (IH s1 k G1) as (s' & P & Q). { exact (covers_S _ _ _ _ Cv). }
      exists s'. split; [econstructor; [apply (skip_first nx [] s s v s1); [constructor|exact R]|exact P]|].
      econstructor; [exact R|exact Q].
  Qed.

  Lemma gives_app f (s : S) (l1 l2 : list A) o : gives f s (l1 ++ l2, o) ->
    exists s1, emits f s l1 s1 /\ gives f s1 (l2, o).
  Proof.
    intros (s' & E & F). cbn in E, F. apply emits_app_inv in E. destruct E as (s1 & E1 & E2).
    exists s1. split; [exact E1|]. exists s'. split; assumption.
  Qed.

  Lemma pulls_after f (s : S) (l1 l2 : list A) o s1 n s2 : emits f s l1 s1 -> pulls f s1 (l2, o) n s2 ->
    pulls f s (l1 ++ l2, o) (length l1 + n) s2.
  Proof.
    induction 1; intros P; [exact P|]. cbn. econstructor; eauto.
  Qed.

  Lemma ok_skip (za : Zero A) n l o s : gives nx s (l, o) -> stage_ok (SSkip za n) nx s (l, o).
  Proof.
    intros G k Cv. unfold stage_meaning, stage_fn, stage_init, stage_src, stage_demand in *. cbn [fst snd] in *.
    destruct k as [|k]; [eexists; split; constructor|].
    destruct (le_lt_dec n (length l)) as [Le | Lt].
    - rewrite <- (firstn_skipn n l) in G. destruct (gives_app _ _ _ _ _ G) as (s1 & E1 & G1).
      assert (Ln : length (firstn n l) = n) by (rewrite firstn_length; lia).
      assert (Hk : Nat.min (n + Datatypes.S k) (Datatypes.S (length l)) = n + Datatypes.S k).
      { destruct Cv as [Cv | [Cv _]]; cbn in Cv; rewrite skipn_length in Cv; lia. }
      rewrite Hk.
      assert (Q : forall s2, pulls nx s1 (skipn n l, o) (Datatypes.S k) s2 -> pulls nx s (l, o) (n + Datatypes.S k) s2).
      { intros s2 P. pose proof (pulls_after _ _ _ _ _ _ _ _ E1 P) as P2. rewrite firstn_skipn, Ln in P2. exact P2. }
      destruct (skipn n l) as [|v l'] eqn:El.
      + destruct (covers_nil _ _ Cv) as (-> & e & ->). destruct (gives_nil_err _ _ _ G1) as [s2 F].
        exists (0, s2). split; [|apply Q; constructor; exact F]. constructor. exists zv.
        pose proof F as F0. destruct F0 as [w [nf HF]]. destruct (skip_loop_ok nx _ _ _ E1) as [nl HL]. rewrite Ln in HL.
        exists (nf + nl). intros m Hm. unfold st_skip. rewrite (HL m) by lia. cbn. rewrite (HF m) by lia. reflexivity.
      + destruct (gives_cons _ _ _ _ _ G1) as (s2 & R & G2).
        destruct (skip0_ok za l' o s2 k G2) as (s3 & P & P'). { exact (covers_S _ _ _ _ Cv). }
        exists (0, s3). split; [|apply Q; econstructor; eassumption].
        econstructor; [|exact P]. pose proof (skip_first nx _ _ _ _ _ E1 R) as X. rewrite Ln in X. exact X.
    - rewrite skipn_all2 in Cv |- * by lia. destruct (covers_nil _ _ Cv) as (-> & e & ->).
      destruct G as (s1 & E1 & F). cbn in E1, F. destruct (F e eq_refl) as [s2 F2].
      exists (0, s2). split.
      + constructor. exists zv. destruct (skip_loop_err nx _ n _ _ _ _ E1 F2 Lt) as [nl HL].
        exists nl. intros m Hm. unfold st_skip. rewrite (HL m) by lia. reflexivity.
      + replace (Nat.min (n + 1) (Datatypes.S (length l))) with (Datatypes.S (length l)) by lia.
        eapply pulls_all; eassumption.
  Qed.

  Lemma limit_value (za : Zero A) n s v s1 : returns nx s (v, None) s1 ->
    returns (st_limit nx) (Datatypes.S n, s) (v, None) (n, s1).
  Proof. intros [k R]. exists k. intros m Hm. unfold st_limit. rewrite (R m Hm). reflexivity. Qed.

  Lemma ok_limit (za : Zero A) l o : forall n s, gives nx s (l, o) -> stage_ok (SLimit za n) nx s (l, o).
  Proof.
    induction l as [|v l IH]; intros n s G k Cv; (destruct k as [|k]; [eexists; split; constructor|]);
      unfold stage_meaning, stage_fn, stage_init, stage_src, stage_demand in *; cbn [fst snd] in *; destruct n as [|n].
    - cbn in Cv |- *. destruct (covers_nil _ _ Cv) as (-> & e & E). exists (0, s). split; [|constructor].
      constructor. exists zv. exists 0. reflexivity.
    - cbn in Cv |- *. destruct (covers_nil _ _ Cv) as (-> & e & ->). destruct (gives_nil_err _ _ _ G) as [s' F].
      exists (Datatypes.S n, s'). split; [|constructor; exact F]. constructor. exists zv. destruct F as [w [m F]].
      exists m. intros x Hx. cbn. rewrite (F x Hx). reflexivity.
    - cbn in Cv |- *. destruct (covers_nil _ _ Cv) as (-> & e & E). exists (0, s). split; [|constructor].
      constructor. exists zv. exists 0. reflexivity.
    - destruct (gives_cons _ _ _ _ _ G) as (s1 & R & G1). cbn [length Nat.leb firstn] in *.
      specialize (IH n s1 G1 k).
      unfold stage_meaning, stage_fn, stage_init, stage_src, stage_demand in IH; cbn [fst snd] in IH.
      destruct (n <=? length l) eqn:Le.
      + destruct IH as (st & P & Q). { exact (covers_S _ _ _ _ Cv). }
        exists st. split; [econstructor; [apply limit_value; exact R|exact P]|].
        rewrite <- Nat.succ_min_distr. econstructor; [exact R|exact Q].
      + destruct IH as (st & P & Q). { exact (covers_S _ _ _ _ Cv). }
        exists st. split; [econstructor; [apply limit_value; exact R|exact P]|].
        rewrite <- Nat.succ_min_distr. econstructor; [exact R|exact Q].
  Qed.

  (** Reductions: one call reads everything. *)
  Lemma reduction {St B} (g : stepfn St B) st0 (o : option err) (result : list B) (dm : nat -> nat) (pr : St -> S) s l :
    (forall k, dm k = match k with 0 => 0 | _ => Datatypes.S (length l) end) -> pr st0 = s ->
    gives nx s (l, o) ->
    (forall s1 s2, emits nx s l s1 -> fails nx s1 EOI s2 ->
       exists st1, pr st1 = s2 /\
         match result with [] => fails g st0 EOI st1 | [v] => returns g st0 (v, None) st1 /\ fails g st1 EOI st1 | _ => False end) ->
    (forall s1 s2 e, emits nx s l s1 -> fails nx s1 e s2 -> e <> EOI -> exists st1, pr st1 = s2 /\ fails g st0 e st1) ->
    forall k, covers (reduced o result) k ->
    exists st, pulls g st0 (reduced o result) k st /\ pulls nx s (l, o) (dm k) (pr st).
  Proof.
    intros Hd H0 G Hok Herr k Cv. rewrite Hd. destruct k as [|k]; [exists st0; rewrite H0; split; constructor|].
    destruct o as [e|]; [|cbn in Cv; destruct (covers_nil _ _ Cv) as (_ & e & E); discriminate].
    destruct G as (s1 & E1 & F). cbn in E1, F. destruct (F e eq_refl) as [s2 F2].
    assert (Q : pulls nx s (l, Some e) (Datatypes.S (length l)) s2) by (eapply pulls_all; eassumption).
    assert (Dec : e = EOI \/ e <> EOI) by (destruct e; (left; reflexivity) || (right; discriminate)).
    destruct Dec as [-> | Ne].
    - destruct (Hok s1 s2 E1 F2) as (st1 & P1 & R). exists st1. rewrite P1. split; [|exact Q]. cbn in Cv |- *.
      destruct result as [|v [|? ?]]; [|destruct R as [R R2]|contradiction].
      + destruct (covers_nil _ _ Cv) as (-> & _). constructor. exact R.
      + apply covers_S in Cv. econstructor; [exact R|]. destruct k as [|k]; [constructor|].
        destruct (covers_nil _ _ Cv) as (-> & _). constructor. exact R2.
    - destruct (Herr s1 s2 e E1 F2 Ne) as (st1 & P1 & R). exists st1. rewrite P1. split; [|exact Q].
      assert (X : reduced (Some e) result = ([], Some e)) by (destruct e; congruence || reflexivity).
      rewrite X in Cv |- *. destruct (covers_nil _ _ Cv) as (-> & _). constructor. exact R.
  Qed.

  Lemma ok_to_slice l o s : gives nx s (l, o) -> stage_ok SToSlice nx s (l, o).
  Proof.
    intros G. unfold stage_ok, stage_meaning, stage_fn, stage_init, stage_src. cbn [fst snd].
    apply (reduction (st_to_slice nx) (false, s) o [l] (stage_demand SToSlice (l, o)) snd s l); [reflexivity|reflexivity|exact G| |].
    - intros s1 s2 E F. exists (true, s2). split; [reflexivity|]. split; [eapply to_slice_eoi; eassumption|].
      exists []. exists 0. reflexivity.
    - intros s1 s2 e E F N. exists (true, s2). split; [reflexivity|]. eapply to_slice_err; eassumption.
  Qed.

  Lemma reduce_to_run {B} (zb : Zero B) (f : B -> A -> B) acc0 ids s v s1 l s2 s3 :
    returns nx s (v, None) s1 -> acc0 = match ids with [] => zv | id :: _ => id end ->
    emits nx s1 l s2 -> fails nx s2 EOI s3 ->
    returns (st_reduce_to nx f ids) (false, s) (fold_left f (v :: l) acc0, None) (true, s3).
  Proof.
    intros [n R] -> E F. destruct ids as [|id ids].
    - destruct (reduce_loop_eoi nx f (f zv v) _ _ _ _ E F) as [n2 HR]. exists (n + n2). intros m Hm.
      unfold st_reduce_to. rewrite (R m) by lia. cbn. apply HR. lia.
    - destruct (reduce_loop_eoi nx f (f id v) _ _ _ _ E F) as [n2 HR]. exists (n + n2). intros m Hm.
      unfold st_reduce_to. rewrite (R m) by lia. cbn. apply HR. lia.
  Qed.

  Lemma reduce_to_run_err {B} (zb : Zero B) (f : B -> A -> B) ids s l s1 e s2 :
    emits nx s l s1 -> fails nx s1 e s2 -> e <> EOI -> fails (st_reduce_to nx f ids) (false, s) e (true, s2).
  Proof.
    intros E F N. inversion E; subst.
    - destruct F as [w [n F]]. exists zv, n. intros m Hm. unfold st_reduce_to.
      destruct ids; rewrite (F m Hm); cbn; destruct e; congruence || reflexivity.
    - match goal with H : returns nx s (_, None) _ |- _ => destruct H as [n R] end.
      destruct ids as [|id ids].
      + match goal with H : emits nx _ _ s1 |- _ => destruct (reduce_loop_err nx f (f zv v) _ _ _ _ _ H F N) as [n2 HR] end.
        exists zv, (n + n2). intros m Hm. unfold st_reduce_to. rewrite (R m) by lia. cbn. apply HR. lia.
      + match goal with H : emits nx _ _ s1 |- _ => destruct (reduce_loop_err nx f (f id v) _ _ _ _ _ H F N) as [n2 HR] end.
        exists zv, (n + n2). intros m Hm. unfold st_reduce_to. rewrite (R m) by lia. cbn. apply HR. lia.
  Qed.

  Lemma ok_reduce_to {B} (zb : Zero B) (f : B -> A -> B) ids l o s : gives nx s (l, o) ->
    stage_ok (SReduceTo zb f ids) nx s (l, o).
  Proof.
    intros G. unfold stage_ok, stage_meaning, stage_fn, stage_init, stage_src. cbn [fst snd].
    apply (reduction (st_reduce_to nx f ids) (false, s) o _ (stage_demand (SReduceTo zb f ids) (l, o)) snd s l);
      [reflexivity|reflexivity|exact G| |].
    - intros s1 s2 E F. exists (true, s2). split; [reflexivity|].
      destruct ids as [|id ids]; destruct l as [|v l]; inversion E; subst.
      + destruct F as [w [n F]]. exists zv, n. intros m Hm. unfold st_reduce_to. rewrite (F m Hm). reflexivity.
      + split; [eapply reduce_to_run; try eassumption; reflexivity|apply reduce_done].
      + split; [|apply reduce_done]. destruct F as [w [n F]]. exists n. intros m Hm. unfold st_reduce_to. rewrite (F m Hm). reflexivity.
      + split; [eapply reduce_to_run; try eassumption; reflexivity|apply reduce_done].
    - intros s1 s2 e E F N. exists (true, s2). split; [reflexivity|]. eapply reduce_to_run_err; eassumption.
  Qed.

  Lemma reduce_run (za : Zero A) (f : A -> A -> A) ids s v s1 l s2 s3 :
    returns nx s (v, None) s1 -> emits nx s1 l s2 -> fails nx s2 EOI s3 ->
    returns (st_reduce nx f ids) (false, s) (match ids with [] => fold_left f l v | id :: _ => fold_left f (v :: l) id end, None) (true, s3).
  Proof.
    intros [n R] E F. destruct ids as [|id ids].
    - destruct (reduce_loop_eoi nx f v _ _ _ _ E F) as [n2 HR]. exists (n + n2). intros m Hm.
      unfold st_reduce. rewrite (R m) by lia. cbn. apply HR. lia.
    - destruct (reduce_loop_eoi nx f (f id v) _ _ _ _ E F) as [n2 HR]. exists (n + n2). intros m Hm.
      unfold st_reduce. rewrite (R m) by lia. cbn. apply HR. lia.
  Qed.

  Lemma reduce_run_err (za : Zero A) (f : A -> A -> A) ids s l s1 e s2 :
    emits nx s l s1 -> fails nx s1 e s2 -> e <> EOI -> fails (st_reduce nx f ids) (false, s) e (true, s2).
  Proof.
    intros E F N. inversion E; subst.
    - destruct F as [w [n F]]. exists zv, n. intros m Hm. unfold st_reduce.
      destruct ids; rewrite (F m Hm); cbn; destruct e; congruence || reflexivity.
    - match goal with H : returns nx s (_, None) _ |- _ => destruct H as [n R] end.
      destruct ids as [|id ids].
      + match goal with H : emits nx _ _ s1 |- _ => destruct (reduce_loop_err nx f v _ _ _ _ _ H F N) as [n2 HR] end.
        exists zv, (n + n2). intros m Hm. unfold st_reduce. rewrite (R m) by lia. cbn. apply HR. lia.
      + match goal with H : emits nx _ _ s1 |- _ => destruct (reduce_loop_err nx f (f id v) _ _ _ _ _ H F N) as [n2 HR] end.
        exists zv, (n + n2). intros m Hm. unfold st_reduce. rewrite (R m) by lia. cbn. apply HR. lia.
  Qed.

  Lemma ok_reduce (za : Zero A) (f : A -> A -> A) ids l o s : gives nx s (l, o) -> stage_ok (SReduce za f ids) nx s (l, o).
  Proof.
    intros G. unfold stage_ok, stage_meaning, stage_fn, stage_init, stage_src. cbn [fst snd].
    apply (reduction (st_reduce nx f ids) (false, s) o _ (stage_demand (SReduce za f ids) (l, o)) snd s l);
      [reflexivity|reflexivity|exact G| |].
    - intros s1 s2 E F. exists (true, s2). split; [reflexivity|].
      destruct ids as [|id ids]; destruct l as [|v l]; inversion E; subst.
      + destruct F as [w [n F]]. exists zv, n. intros m Hm. unfold st_reduce. rewrite (F m Hm). reflexivity.
      + split; [eapply (reduce_run za f []); eassumption|apply reduce_done'].
      + split; [|apply reduce_done']. destruct F as [w [n F]]. exists n. intros m Hm. unfold st_reduce. rewrite (F m Hm). reflexivity.
      + split; [eapply (reduce_run za f (id :: ids)); eassumption|apply reduce_done'].
    - intros s1 s2 e E F N. exists (true, s2). split; [reflexivity|]. eapply reduce_run_err; eassumption.
  Qed.

  Lemma first_demand_hit (hit : A -> bool) l1 x l2 : Forall (fun y => hit y = false) l1 -> hit x = true ->
    first_demand hit (l1 ++ x :: l2) = Datatypes.S (length l1).
  Proof. induction 1 as [|y l1 Hy F IH]; intros Hx; cbn; [rewrite Hx; reflexivity|rewrite Hy, IH by exact Hx; reflexivity]. Qed.

  Lemma first_demand_none (hit : A -> bool) l : Forall (fun y => hit y = false) l -> first_demand hit l = Datatypes.S (length l).
  Proof. induction 1 as [|y l Hy F IH]; cbn; [reflexivity|rewrite Hy, IH; reflexivity]. Qed.

  Lemma ok_bool p identity stop l o s : gives nx s (l, o) -> stage_ok (SReduceBool p identity stop) nx s (l, o).
  Proof.
    intros G. unfold stage_ok, stage_meaning, stage_fn, stage_init, stage_src. cbn [fst snd].
    destruct (first_hit p stop l) as [Hn | (l1 & x & l2 & -> & Hn & Hx)].
    - assert (Hn' : Forall (fun y => Bool.eqb (p y) stop = false) l).
      { eapply Forall_impl; [|exact Hn]. intros y Hy. apply Bool.eqb_false_iff. exact Hy. }
      assert (X : existsb (fun x => Bool.eqb (p x) stop) l = false).
      { clear -Hn'. induction Hn' as [|y l Hy F IH]; cbn; [reflexivity|]. rewrite Hy, IH. reflexivity. }
      rewrite X.
      apply (reduction (st_reduce_bool nx p identity stop) (false, s) o _
               (stage_demand (SReduceBool p identity stop) (l, o)) snd s l).
      + intros k. unfold stage_demand. cbn [fst]. destruct k; [reflexivity|]. apply first_demand_none. exact Hn'.
      + reflexivity.
      + exact G.
      + intros s1 s2 E F. exists (true, s2). split; [reflexivity|]. split; [eapply bool_eoi; eassumption|apply bool_done].
      + intros s1 s2 e E F N. exists (true, s2). split; [reflexivity|]. eapply bool_err; eassumption.
    - assert (Hn' : Forall (fun y => Bool.eqb (p y) stop = false) l1).
      { eapply Forall_impl; [|exact Hn]. intros y Hy. apply Bool.eqb_false_iff. exact Hy. }
      assert (X : existsb (fun x => Bool.eqb (p x) stop) (l1 ++ x :: l2) = true).
      { rewrite existsb_app. cbn. rewrite Hx, Bool.eqb_reflx. cbn. apply Bool.orb_true_r. }
      rewrite X. intros k Cv. unfold stage_demand. cbn [fst].
      destruct k as [|k]; [exists (false, s); split; constructor|].
      rewrite first_demand_hit; [|exact Hn'|rewrite Hx; apply Bool.eqb_reflx].
      change (l1 ++ x :: l2) with (l1 ++ [x] ++ l2) in G |- *. rewrite app_assoc in G |- *.
      destruct (gives_app _ _ _ _ _ G) as (s1 & E & G1). exists (true, s1). split.
      + econstructor; [eapply bool_stop; eassumption|]. destruct k as [|k]; [constructor|].
        apply covers_S in Cv. destruct (covers_nil _ _ Cv) as (-> & _). constructor. apply bool_done.
      + pose proof (pulls_after _ _ _ l2 o _ 0 _ E (pulls_0 _ _ _)) as P. rewrite app_length in P. cbn in P.
        replace (length l1 + 1 + 0) with (Datatypes.S (length l1)) in P by lia. exact P.
  Qed.
End Stages.

Section ExpandStage.
  Context {S A : Type}.
  Variable nx : stepfn S (list A).
  Variable za : Zero A.

  Lemma drain_pulls x s ls o k st : forall j idx, length x = idx + j ->
    pulls (st_expand_slices nx) (x, length x, s) (concat ls, o) k st ->
    pulls (st_expand_slices nx) (x, idx, s) (skipn idx x ++ concat ls, o) (j + k) st.
  Proof.
    induction j as [|j IH]; intros idx L P.
    - replace idx with (length x) by lia. rewrite skipn_all. exact P.
    - destruct (nth_error x idx) as [v|] eqn:N; [|apply nth_error_None in N; lia].
      assert (E : skipn idx x = v :: skipn (Datatypes.S idx) x).
      { clear -N. revert x N. induction idx as [|i IH]; intros [|y x] N; try discriminate N; cbn in *.
        - injection N as ->. reflexivity.
        - apply IH. exact N. }
      rewrite E. cbn. econstructor; [apply exp_in; exact N|]. replace (idx + 1) with (Datatypes.S idx) by lia.
      apply IH; [lia|exact P].
  Qed.

  Lemma drain_part x s (rest : list A) o : forall j idx, idx + j <= length x ->
    pulls (st_expand_slices nx) (x, idx, s) (skipn idx x ++ rest, o) j (x, idx + j, s).
  Proof.
    induction j as [|j IH]; intros idx L.
    - replace (idx + 0) with idx by lia. constructor.
    - destruct (nth_error x idx) as [v|] eqn:N; [|apply nth_error_None in N; lia].
      assert (E : skipn idx x = v :: skipn (Datatypes.S idx) x).
      { clear -N. revert x N. induction idx as [|i IH]; intros [|y x] N; try discriminate N; cbn in *.
        - injection N as ->. reflexivity.
        - apply IH. exact N. }
      rewrite E. cbn. econstructor; [apply exp_in; exact N|]. replace (idx + 1) with (Datatypes.S idx) by lia.
      replace (idx + Datatypes.S j) with (Datatypes.S idx + j) by lia. apply IH. lia.
  Qed.

  Lemma ok_expand_gen ls o : forall emps slc s0 s k,
    emits nx s0 emps s -> Forall (fun x => x = []) emps -> gives nx s (ls, o) ->
    covers (concat ls, o) (Datatypes.S k) ->
    exists st, pulls (st_expand_slices nx) (slc, length slc, s0) (concat ls, o) (Datatypes.S k) st /\
      pulls nx s (ls, o) (expand_demand ls (Datatypes.S k)) (snd st).
  Proof.
    induction ls as [|x ls IH]; intros emps slc s0 s k E Z G Cv.
    - destruct (covers_nil _ _ Cv) as (-> & e & ->). destruct (gives_nil_err _ _ _ G) as [s' F].
      eexists. split; [constructor; eapply exp_fail; eassumption|]. cbn. constructor. exact F.
    - destruct (gives_cons _ _ _ _ _ G) as (s1 & R & G1). destruct x as [|v xs].
      + destruct (IH (emps ++ [[]]) slc s0 s1 k) as (st & P & Q).
        * eapply emits_app; [exact E|apply emits_one; exact R].
        * apply Forall_app. split; [exact Z|]. constructor; [reflexivity|constructor].
        * exact G1.
        * exact Cv.
        * exists st. split; [exact P|]. cbn. econstructor; [exact R|exact Q].
      + assert (H : returns (st_expand_slices nx) (slc, length slc, s0) (v, None) (v :: xs, 1, s1)) by (eapply exp_next; eassumption).
        cbn [expand_demand concat app]. destruct (Datatypes.S k <=? length (v :: xs)) eqn:Le.
        * apply Nat.leb_le in Le. cbn in Le. exists (v :: xs, 1 + k, s1). split; [|econstructor; [exact R|constructor]].
          econstructor; [exact H|]. change (xs ++ concat ls) with (skipn 1 (v :: xs) ++ concat ls).
          apply (drain_part (v :: xs) s1 (concat ls) o k 1). cbn. lia.
        * apply Nat.leb_gt in Le. cbn [length] in Le.
          destruct (Datatypes.S k - length (v :: xs)) as [|k'] eqn:Ek; cbn [length] in Ek; [lia|].
          destruct (IH [] (v :: xs) s1 s1 k') as (st & P & Q); [constructor|constructor|exact G1| |].
          { cbn [concat] in Cv. unfold covers in *. cbn [fst snd] in *. rewrite app_length in Cv. cbn [length] in Cv.
            destruct Cv as [Cv | [Cv N]]; [left; lia|right; split; [lia|exact N]]. }
          exists st. split; [|econstructor; [exact R|exact Q]].
          econstructor; [exact H|]. change (xs ++ concat ls) with (skipn 1 (v :: xs) ++ concat ls).
          replace k with (length xs + Datatypes.S k') by lia.
          apply drain_pulls; [cbn; lia|exact P].
  Qed.

  Lemma ok_expand ls o s : gives nx s (ls, o) -> stage_ok (SExpand za) nx s (ls, o).
  Proof.
    intros G k Cv. destruct k as [|k].
    - exists ([], 0, s). split; [constructor|]. cbn. destruct ls; constructor.
    - apply (ok_expand_gen ls o [] [] s s k); [constructor|constructor|exact G|exact Cv].
  Qed.
End ExpandStage.

Section MapStages.
  Context {S K V : Type}.
  Variables (zk : Zero K) (zv' : Zero V).

  Lemma ok_to_map eqb (nx : stepfn S (K * V)) l o s : gives nx s (l, o) -> stage_ok (SToMap zk zv' eqb) nx s (l, o).
  Proof.
    intros G. unfold stage_ok, stage_meaning, stage_fn, stage_init, stage_src. cbn [fst snd].
    assert (X : forall s1 e s2, emits nx s l s1 -> fails nx s1 e s2 -> exists n, forall m, n <= m ->
      st_to_map eqb nx m (false, s) = Done (match e with EOI => (fold_left (fun m kv => mset eqb m (fst kv) (snd kv)) l [], None) | _ => ([], Some e) end, (true, s2))).
    { intros s1 e s2 E F. destruct (pull_err nx (fun m kv => Done (inl (mset eqb m (fst kv) (snd kv))))
          (fun (m : list (K * V)) e => match e with EOI => (m, None) | _ => ([], Some e) end) _ _ _ _ _ _ _
          (foldl_feeds (fun m kv => mset eqb m (fst kv) (snd kv)) [] l) E F) as [n P].
      exists n. intros m Hm. unfold st_to_map. rewrite P by lia. destruct e; reflexivity. }
    apply (reduction nx (st_to_map eqb nx) (false, s) o _ (stage_demand (SToMap zk zv' eqb) (l, o)) snd s l); [reflexivity|reflexivity|exact G| |].
    - intros s1 s2 E F. exists (true, s2). split; [reflexivity|]. destruct (X _ _ _ E F) as [n P]. split; [exists n; exact P|].
      exists []. exists 0. reflexivity.
    - intros s1 s2 e E F N. exists (true, s2). split; [reflexivity|]. destruct (X _ _ _ E F) as [n P].
      exists [], n. intros m Hm. rewrite (P m Hm). destruct e; congruence || reflexivity.
  Qed.

  Section OneSource.
  Variable nx : stepfn S (list (K * V)).
  Let go := st_expand_maps (fun _ : K => false) (fun _ : V => false) nx.

  Lemma em_part x s : forall j (rest : list (K * V)) o, j <= length x ->
    pulls go (Some x, s) (x ++ rest, o) j (Some (skipn j x), s).
  Proof.
    induction x as [|v x IH]; intros j rest o L; cbn in L; [replace j with 0 by lia; constructor|].
    destruct j as [|j]; [constructor|]. cbn. econstructor; [exists 0; intros m _; reflexivity|]. apply IH. lia.
  Qed.

  Lemma em_pulls x s rest o k st : pulls go (Some [], s) (rest, o) k st -> pulls go (Some x, s) (x ++ rest, o) (length x + k) st.
  Proof.
    intros P. induction x as [|v x IH]; [exact P|]. cbn. econstructor; [exists 0; intros m _; reflexivity|exact IH].
  Qed.

  Lemma ok_expand_maps_gen ls o : forall emps m s0 s k, em_idle m ->
    emits nx s0 emps s -> Forall (fun x => x = []) emps -> gives nx s (ls, o) ->
    covers (concat ls, o) (Datatypes.S k) ->
    exists st, pulls go (m, s0) (concat ls, o) (Datatypes.S k) st /\
      pulls nx s (ls, o) (expand_demand ls (Datatypes.S k)) (snd st).
  Proof.
    induction ls as [|x ls IH]; intros emps m s0 s k I E Z G Cv.
    - destruct (covers_nil _ _ Cv) as (-> & e & ->). destruct (gives_nil_err _ _ _ G) as [s' F].
      eexists. split; [constructor; eapply em_fail; eassumption|]. cbn. constructor. exact F.
    - destruct (gives_cons _ _ _ _ _ G) as (s1 & R & G1). destruct x as [|v xs].
      + destruct (IH (emps ++ [[]]) m s0 s1 k I) as (st & P & Q).
        * eapply emits_app; [exact E|apply emits_one; exact R].
        * apply Forall_app. split; [exact Z|]. constructor; [reflexivity|constructor].
        * exact G1.
        * exact Cv.
        * exists st. split; [exact P|]. cbn. econstructor; [exact R|exact Q].
      + assert (H : returns go (m, s0) (v, None) (Some xs, s1)) by (eapply em_next; try eassumption; split; reflexivity).
        cbn [expand_demand concat app]. destruct (Datatypes.S k <=? length (v :: xs)) eqn:Le.
        * apply Nat.leb_le in Le. cbn in Le. exists (Some (skipn k xs), s1). split; [|econstructor; [exact R|constructor]].
          econstructor; [exact H|]. apply em_part. lia.
        * apply Nat.leb_gt in Le. cbn [length] in Le.
          destruct (Datatypes.S k - length (v :: xs)) as [|k'] eqn:Ek; cbn [length] in Ek; [lia|].
          destruct (IH [] (Some []) s1 s1 k' (or_intror eq_refl)) as (st & P & Q); [constructor|constructor|exact G1| |].
          { cbn [concat] in Cv. unfold covers in *. cbn [fst snd] in *. rewrite app_length in Cv. cbn [length] in Cv.
            destruct Cv as [Cv | [Cv N]]; [left; lia|right; split; [lia|exact N]]. }
          exists st. split; [|econstructor; [exact R|exact Q]].
          econstructor; [exact H|]. replace k with (length xs + Datatypes.S k') by lia.
          apply em_pulls. exact P.
  Qed.

  Lemma ok_expand_maps ls o s : gives nx s (ls, o) -> stage_ok (SExpandMaps zk zv') nx s (ls, o).
  Proof.
    intros G k Cv. destruct k as [|k].
    - exists (None, s). split; [constructor|]. cbn. destruct ls; constructor.
    - apply (ok_expand_maps_gen ls o [] None s s k (or_introl eq_refl)); [constructor|constructor|exact G|exact Cv].
  Qed.
  End OneSource.
End MapStages.

Lemma stage_correct {A B} (g : stage A B) : forall S (nx : stepfn S A) s tr, gives nx s tr -> stage_ok g nx s tr.
Proof.
  destruct g; intros S nx s [l o] G;
    eauto using ok_map, ok_map_error, ok_filter, ok_peek, ok_skip, ok_limit, ok_reduce_to, ok_reduce, ok_bool, ok_to_slice, ok_expand, ok_to_map, ok_expand_maps.
Qed.

(** ** Pipelines *)
Lemma gives_next {S T} (ZT : Zero T) (f : stepfn S T) s tr : gives f s tr -> gives (next f) (ofIter s) tr.
Proof.
  intros (s' & E & F). exists (ofIter s'). split; [apply ofIter_emits; exact E|].
  intros e He. destruct (F e He) as [s'' F2]. exists (dead s'' e). exists zv. apply next_error. exact F2.
Qed.

(** The trace of an iterator over a source, with the number of calls made on the source. *)
Definition reads {S0 A B} (it : iterator S0 B) (f : stepfn S0 A) (s0 : S0) (tr0 : trace A) (tr : trace B) (dm : nat -> nat) : Prop :=
  gives (it_next it) (it_init it) tr /\
  forall k, covers tr k -> exists st, pulls (it_next it) (it_init it) tr k st /\ pulls f s0 tr0 (dm k) (it_source it st).

Lemma source_reads {S0 A} (ZA : Zero A) (f : stepfn S0 A) s tr : gives f s tr -> reads (source ZA f s) f s tr tr (fun k => k).
Proof.
  intros G. split; [apply gives_next; exact G|]. intros k Cv. destruct tr as [l o].
  destruct (gives_pulls f l o s k G Cv) as [s' P]. destruct (pulls_next ZA f s _ k s' P) as (it & Q & E & _).
  exists it. split; [exact Q|]. cbn. rewrite E. exact P.
Qed.

Lemma stage_reads {S0 A0 A B} (g : stage A B) (it : iterator S0 A) (f : stepfn S0 A0) s0 tr0 tr dm :
  reads it f s0 tr0 tr dm ->
  reads (apply_stage g it) f s0 tr0 (stage_meaning g tr) (fun k => dm (stage_demand g tr k)).
Proof.
  intros [G D]. pose proof (stage_correct g _ _ _ _ G) as K.
  split.
  - cbn. apply gives_next. destruct (stage_meaning g tr) as [l o] eqn:Em. apply pulls_gives. intros n Cv.
    destruct (K n) as (st & P & _); [rewrite Em; exact Cv|]. rewrite Em in P. eauto.
  - intros k Cv. destruct (K k Cv) as (st & P & Q).
    destruct (D _ (pulls_covers _ _ _ _ _ Q)) as (st' & P' & Q').
    destruct (pulls_next (stage_zero g) _ _ _ _ _ P) as (i & Pi & E & _).
    exists i. split; [exact Pi|]. cbn. rewrite E, (pulls_det _ _ _ _ _ Q _ P'). exact Q'.
Qed.

Lemma pipe_reads {S0 A0 A B} (p : pipe A B) (f : stepfn S0 A0) s0 tr0 : forall (it : iterator S0 A) tr dm,
  reads it f s0 tr0 tr dm -> reads (apply_pipe p it) f s0 tr0 (meaning p tr) (fun k => dm (demand p tr k)).
Proof.
  induction p as [A|A B C g p IH]; intros it tr dm R; [exact R|].
  cbn. exact (IH _ _ _ (stage_reads g it f s0 tr0 tr dm R)).
Qed.

(** Every iterator of a pipeline is one made by OfIter, so once it has failed it keeps failing without reading. *)
Lemma pipe_shape {S0 A B} (p : pipe A B) (za : Zero A) (f : stepfn S0 A) s :
  exists (St : Type) (g : stepfn St B) (st0 : St) (pr : St -> S0),
    apply_pipe p (source za f s) =
    mkIterator (impl St B) (next (H := pipe_zero p za) g) (ofIter st0) (fun i => pr (src i)).
Proof.
  assert (H : forall A B (p : pipe A B) (za : Zero A) (it : iterator S0 A),
    (exists (St : Type) (g : stepfn St A) (st0 : St) (pr : St -> S0),
       it = mkIterator (impl St A) (next (H := za) g) (ofIter st0) (fun i => pr (src i))) ->
    exists (St : Type) (g : stepfn St B) (st0 : St) (pr : St -> S0),
      apply_pipe p it = mkIterator (impl St B) (next (H := pipe_zero p za) g) (ofIter st0) (fun i => pr (src i))).
  { clear. intros A B p. induction p as [A|A B C g p IH]; intros za it Hit; [exact Hit|].
    cbn. apply IH. unfold apply_stage. eexists _, _, _, (fun st => it_source it (stage_src g st)). reflexivity. }
  apply H. exists S0, f, s, (fun x => x). reflexivity.
Qed.

Definition settled {S0 T} (ZT : Zero T) (it : iterator S0 T) : Prop :=
  forall l st e st', emits (it_next it) (it_init it) l st -> fails (it_next it) st e st' ->
    returns (it_next it) st (zv, Some e) st' /\ returns (it_next it) st' (zv, Some e) st'.

Lemma emits_wf {S T} (ZT : Zero T) (g : stepfn S T) it l it' : wf it -> emits (next g) it l it' -> wf it'.
Proof.
  intros W E. revert W. induction E as [it|it v it1 l it2 R E IH]; intros W; [exact W|].
  apply IH. destruct R as [n R]. exact (wf_next _ _ _ _ _ W (R n (le_n n))).
Qed.

Lemma next_settles {S T} (ZT : Zero T) (g : stepfn S T) s0 l st e st' :
  emits (next g) (ofIter s0) l st -> fails (next g) st e st' ->
  returns (next g) st (zv, Some e) st' /\ returns (next g) st' (zv, Some e) st'.
Proof.
  intros E [v R]. pose proof (emits_wf ZT g _ _ _ (wf_ofIter s0) E) as W.
  destruct R as [n R]. pose proof (R n (le_n n)) as R0.
  destruct (next_error_dead g n st v e st' W R0) as (-> & L & Er & B).
  split; [exists n; exact R|]. destruct st' as [fl sr bf le]. cbn in L, Er, B. subst. apply (next_dead g sr e).
Qed.

Lemma pipe_settled {S0 A B} (p : pipe A B) (za : Zero A) (f : stepfn S0 A) s :
  settled (pipe_zero p za) (apply_pipe p (source za f s)).
Proof.
  destruct (pipe_shape p za f s) as (St & g & st0 & pr & ->). intros l st e st'. cbn. apply next_settles.
Qed.

Lemma pulls_split {S T} (f : stepfn S T) s l e st : pulls f s (l, Some e) (Datatypes.S (length l)) st ->
  exists s1, emits f s l s1 /\ fails f s1 e st.
Proof.
  revert s. induction l as [|v l IH]; intros s P; inversion P; subst.
  - eexists. split; [constructor|assumption].
  - match goal with H : pulls f _ (l, _) _ _ |- _ => destruct (IH _ H) as (s2 & E & F) end.
    exists s2. split; [econstructor; eassumption|exact F].
Qed.

Lemma demand_0 {A B} (p : pipe A B) : forall tr, demand p tr 0 = 0.
Proof.
  induction p as [|A B C g q IH]; intros tr; [reflexivity|]. cbn. rewrite IH. destruct tr as [l o].
  destruct g; cbn; try reflexivity; destruct l; reflexivity.
Qed.

Lemma meaning_ends {A B} (p : pipe A B) : forall tr e, snd tr = Some e -> exists e', snd (meaning p tr) = Some e'.
Proof.
  induction p as [|A B C g q IH]; intros tr e H; [eauto|]. cbn.
  assert (K : exists e1, snd (stage_meaning g tr) = Some e1).
  { destruct g; destruct tr as [l o]; cbn in H |- *; subst o; eauto.
    - generalize (fst (map_acc f c0 l)). intros rs. induction rs as [|[v [y|]] rs IHr]; cbn; eauto.
    - destruct (n <=? length l); cbn; eauto.
    - destruct e; cbn; eauto.
    - destruct e; cbn; eauto.
    - destruct (existsb _ _); cbn; eauto. destruct e; cbn; eauto.
    - destruct e; cbn; eauto.
    - destruct e; cbn; eauto. }
  destruct K as [e1 K]. exact (IH _ e1 K).
Qed.

Lemma filter_demand_and {A} (q r : A -> bool) l : forall k,
  filter_demand (pure_map q) tt l (filter_demand (pure_map r) tt (filter q l) k) =
  filter_demand (pure_map (fun x => q x && r x)) tt l k.
Proof.
  induction l as [|x l IH]; intros k.
  - cbn. destruct k; reflexivity.
  - cbn [filter]. destruct k as [|k].
    + destruct (q x); cbn; [|destruct (filter q l)]; cbn; reflexivity.
    + cbn [filter_demand]. cbn [pure_map fst snd].
      destruct (q x) eqn:Eq; cbn [andb].
      * cbn [filter_demand pure_map fst snd]. rewrite ?Eq. cbn [andb]. destruct (r x); rewrite <- IH; reflexivity.
      * rewrite <- (IH (Datatypes.S k)).
        destruct (filter_demand (pure_map r) tt (filter q l) (Datatypes.S k)) as [|j] eqn:Ej.
        { exfalso. destruct (filter q l); cbn in Ej; discriminate Ej. }
        cbn [filter_demand pure_map fst snd]. rewrite ?Eq. reflexivity.
Qed.
