(** SetBasePath, Dir and Src on a Unix file system. *)
From Coq Require Import ZArith List Bool Lia.
From Verif Require Import Base Code Path PathSpec PathProofs CodeSpec PropsCode PropsPath UnixFs UnixFsProofs.
Import ListNotations.
Open Scope Z_scope.

(** ** Cleaned paths *)
Definition stepped (w : list Z) : Prop := w <> [] /\ w <> dot.
Lemma stepped_filter ws : Forall stepped ws -> filter (fun w => if list_eq_dec Z.eq_dec w [] then false else if list_eq_dec Z.eq_dec w dot then false else true) ws = ws.
Proof.
  induction 1 as [|w ws (A & B) _ IH]; [reflexivity|]. cbn [filter]. destruct (list_eq_dec Z.eq_dec w []); [congruence|].
  destruct (list_eq_dec Z.eq_dec w dot); [congruence|]. rewrite IH. reflexivity.
Qed.
Lemma stepped_parts k ns : Forall okname ns -> Forall stepped (repeat dotdot k ++ rev ns).
Proof.
  intros F. apply Forall_app. split; [induction k; constructor; auto; split; discriminate|]. apply Forall_forall. intros x I. apply in_rev in I.
  destruct (proj1 (Forall_forall _ _) F x I) as [(A & B & C) _]. split; assumption.
Qed.
Lemma clean_rooted p : p <> [] -> rooted (clean p) = rooted p.
Proof. intros N. rewrite clean_norm by exact N. apply text_rooted. apply norm_ok. Qed.
Lemma steps_clean p : p <> [] -> steps (clean p) = repeat dotdot (fst (norm p)) ++ rev (snd (norm p)).
Proof.
  intros N. rewrite clean_norm by exact N. pose proof (norm_ok p) as Ok. destruct (norm p) as [k ns] eqn:E. unfold steps. rewrite (text_parts _ k ns Ok).
  destruct Ok as [Hk F]. cbn [fst snd] in *. pose proof (stepped_parts k ns F) as St. destruct (rooted p).
  - rewrite (Hk eq_refl) in *. cbn [repeat app] in *. destruct ns as [|n ns]; [reflexivity|].
    change (filter ?f ([] :: ?r)) with (filter f r). apply stepped_filter. exact St.
  - destruct k; [destruct ns; [reflexivity|]|]; apply stepped_filter; exact St.
Qed.
Lemma steps_stepped p : Forall stepped (steps p).
Proof.
  apply Forall_forall. intros w I. apply filter_In in I. destruct I as [_ I]. destruct (list_eq_dec Z.eq_dec w []); [discriminate|].
  destruct (list_eq_dec Z.eq_dec w dot); [discriminate|]. split; assumption.
Qed.
Lemma walk_steps ws : forall l, fold_left walk (filter (fun w => if list_eq_dec Z.eq_dec w [] then false else if list_eq_dec Z.eq_dec w dot then false else true) ws) l = fold_left walk ws l.
Proof.
  induction ws as [|w ws IH]; intros l; [reflexivity|]. cbn [filter fold_left]. unfold walk at 3.
  destruct (list_eq_dec Z.eq_dec w []) as [->|N]; [apply IH|]. destruct (list_eq_dec Z.eq_dec w dot) as [->|N2]; [apply IH|].
  cbn [fold_left]. rewrite IH. f_equal. unfold walk. destruct (list_eq_dec Z.eq_dec w []); [congruence|]. destruct (list_eq_dec Z.eq_dec w dot); congruence.
Qed.
Lemma leads_steps cwd p : leads cwd p = fold_left walk (steps p) (start cwd p).
Proof. unfold leads, steps, start. symmetry. apply walk_steps. Qed.
Lemma leads_clean cwd p : fold_left walk (steps (clean p)) (start cwd (clean p)) = leads cwd p.
Proof.
  destruct p as [|c p]; [reflexivity|]. rewrite <- leads_steps. apply C99_same_place. discriminate.
Qed.
Lemma walk_name l w : stepped w -> w <> dotdot -> walk l w = w :: l.
Proof.
  intros [A B] C. unfold walk. destruct (list_eq_dec Z.eq_dec w []); [congruence|]. destruct (list_eq_dec Z.eq_dec w dot); [congruence|].
  destruct (list_eq_dec Z.eq_dec w dotdot); [congruence|]. reflexivity.
Qed.

(** ** What Mkdir has made *)
Lemma made root t from rps t' : Forall stepped rps -> make_dir root t from rps = (true, t') -> exists w d par,
  rps = w :: par /\ resolve root t from (rev par) = At d /\ (exists pr pw px es, node_at t d = Some (Dir pr pw px es)) /\ node_at t (w :: d) = None /\
  resolve root t' from (rev rps) = At (w :: d) /\ node_at t' (w :: d) = Some fresh_dir /\ fold_left walk (rev rps) from = w :: d /\ t' = put t (w :: d) (Some fresh_dir).
Proof.
  intros St M. apply make_dir_ok in M. destruct M as (w & d & par & pr & pw & px & es & -> & Nd & R & N & P & Nn & ->).
  inversion St as [|? ? Sw Sp]; subst. exists w, d, par.
  assert (E : extends t (put t (w :: d) (Some fresh_dir))) by (apply extends_put; exact Nn).
  assert (Rm : room t (w :: d)) by (cbn; eauto).
  assert (Na : node_at (put t (w :: d) (Some fresh_dir)) (w :: d) = Some fresh_dir) by exact (put_inside t (w :: d) fresh_dir Rm []).
  assert (Rs : resolve root (put t (w :: d) (Some fresh_dir)) from (rev (w :: par)) = At (w :: d)).
  { cbn [rev]. rewrite resolve_snoc, (resolve_At _ _ _ _ _ _ E R). pose proof (E d (ADir pr pw px)) as Ed. unfold thing_at in Ed. rewrite N in Ed. specialize (Ed eq_refl).
    destruct (node_at (put t (w :: d) (Some fresh_dir)) d) as [[|pr' pw' px' es']|]; try discriminate. injection Ed as -> -> ->.
    replace (root || px) with true by (destruct root; [reflexivity|]; cbn [orb] in P |- *; apply andb_true_iff in P; symmetry; apply P).
    rewrite (walk_name d w Sw Nd), Na. reflexivity. }
  repeat split; eauto 8. symmetry. exact (resolve_walk root _ _ _ _ Rs).
Qed.

(** ** An unprivileged process *)
Lemma make_dirs_user t from rps t' : Forall stepped rps -> make_dirs false t from rps = (true, t') ->
  (t' = t /\ is_dir false t from rps = Some true) \/ make_dir false t from rps = (true, t').
Proof.
  revert t'. induction rps as [|w par IH]; intros t' St.
  - cbn [make_dirs]. destruct (is_dir false t from []) as [b|]; [|discriminate]. intros H. injection H as -> ->. left. auto.
  - cbn [make_dirs]. destruct (is_dir false t from (w :: par)) as [b|] eqn:I; [intros H; injection H as -> ->; left; auto|].
    inversion St as [|? ? Sw Sp]; subst. destruct (make_dirs false t from par) as [ok t1] eqn:M. destruct ok; cbn [negb]; [|discriminate].
    destruct (IH t1 Sp eq_refl) as [[-> _]|Md].
    + destruct (make_dir false t from (w :: par)) as [[] t2] eqn:D; [intros H; injection H as ->; right; reflexivity|].
      apply make_dir_fail in D. subst t2. rewrite I. discriminate.
    + destruct (made _ _ _ _ _ Sp Md) as (w' & d' & par' & -> & _ & _ & _ & R & N & _ & _).
      assert (I2 : is_dir false t1 from (w :: w' :: par') = None).
      { unfold is_dir. change (rev (w :: w' :: par')) with (rev (w' :: par') ++ [w]). rewrite resolve_snoc, R, N. reflexivity. }
      destruct (make_dir false t1 from (w :: w' :: par')) as [[] t2] eqn:D.
      * apply make_dir_ok in D. destruct D as (w2 & d2 & par2 & pr & pw & px & es & E & _ & R2 & N2 & P & _). injection E as <- <-.
        rewrite R in R2. injection R2 as <-. rewrite N in N2. injection N2 as <- <- <- <-. discriminate P.
      * apply make_dir_fail in D. subst t2. rewrite I2. discriminate.
Qed.

(** a directory without permissions blocks everything below it *)
Lemma blocked t from rps l es ms : resolve false t from (rev rps) = At l -> node_at t l = Some (Dir false false false es) ->
  ms <> [] -> make_dirs false t from (ms ++ rps) = (false, t).
Proof.
  intros R N. assert (B : forall ms, ms <> [] -> is_dir false t from (ms ++ rps) = None).
  { intros ms0 Ne. unfold is_dir. rewrite rev_app_distr, resolve_app, R. destruct (rev ms0) as [|v vs] eqn:E.
    - apply (f_equal (@rev _)) in E. rewrite rev_involutive in E. cbn in E. congruence.
    - cbn [resolve]. rewrite N. reflexivity. }
  induction ms as [|w ms IH]; intros Ne; [congruence|]. specialize (B (w :: ms) Ne) as Bw. cbn [app] in Bw |- *. cbn [make_dirs]. rewrite Bw.
  destruct ms as [|v ms].
  - cbn [app] in *. assert (H : make_dirs false t from rps = (true, t)).
    { destruct rps as [|v rps]; cbn [make_dirs]; unfold is_dir; rewrite R, N; reflexivity. }
    rewrite H. cbn [negb]. assert (K : make_dir false t from (w :: rps) = (false, t)).
    { cbn [make_dir]. destruct (path_eqb w dotdot); [reflexivity|]. rewrite R, N. reflexivity. }
    rewrite K, Bw. reflexivity.
  - rewrite (IH ltac:(discriminate)). reflexivity.
Qed.

(** ** SetBasePath *)
Section S.
  Variables (root : bool) (cwd : place).
  Notation U := (unix root cwd).
  Notation rsteps bp := (rev (steps (clean bp))).
  Lemma rsteps_stepped bp : Forall stepped (rsteps bp).
  Proof. apply Forall_forall. intros x I. apply in_rev in I. exact (proj1 (Forall_forall _ _) (steps_stepped _) x I). Qed.
  Notation from bp := (start cwd (clean bp)).

  Lemma set_base_cases g t bp t' g' : set_base_path U clean g t bp = (true, (g', t')) ->
    (os_read_dir root cwd t (clean bp) = RdNotExist /\ make_dirs root t (from bp) (rsteps bp) = (true, t')) \/
    (os_read_dir root cwd t (clean bp) = RdOk /\ exists t1, remove_dirs root cwd t (rooted (clean bp)) (from bp) (rsteps bp) = (true, t1) /\ make_dir root t1 (from bp) (rsteps bp) = (true, t')).
  Proof.
    unfold set_base_path. cbn [unix read_dir mkdir_all mkdir remove_all]. destruct (os_read_dir root cwd t (clean bp)).
    - destruct (remove_dirs root cwd t (rooted (clean bp)) (from bp) (rsteps bp)) as [ok t1]. destruct ok; cbn [negb]; [|discriminate].
      destruct (make_dir root t1 (from bp) (rsteps bp)) as [ok t2] eqn:E. intros H. injection H as -> _ ->. right. eauto.
    - destruct (make_dirs root t (from bp) (rsteps bp)) as [ok t2]. intros H. injection H as -> _ ->. left. auto.
    - discriminate.
  Qed.
  Lemma read_dir_is_dir t bp : os_read_dir root cwd t (clean bp) = RdNotExist -> is_dir root t (from bp) (rsteps bp) = None.
  Proof.
    unfold os_read_dir, is_dir. rewrite rev_involutive. destruct (resolve root t (from bp) (steps (clean bp))) as [l| |]; try reflexivity.
    destruct (node_at t l) as [[|r w x es]|]; try discriminate; [destruct (root || r); discriminate|reflexivity].
  Qed.
End S.

(** A SetBasePath that returns, called by an unprivileged process, has just made the directory with Mkdir. *)
Lemma user_base cwd g t bp g' t' : set_base_path (unix false cwd) clean g t bp = (true, (g', t')) ->
  exists t1, make_dir false t1 (start cwd (clean bp)) (rev (steps (clean bp))) = (true, t') /\ (t1 = t \/ os_read_dir false cwd t (clean bp) = RdOk).
Proof.
  intros H. apply set_base_cases in H. destruct H as [[R M]|[R (t1 & _ & M)]]; [|eauto].
  apply make_dirs_user in M; [|apply rsteps_stepped]. destruct M as [[_ I]|M]; [|eauto].
  rewrite (read_dir_is_dir _ _ _ _ R) in I. discriminate.
Qed.
Lemma user_locked cwd g t bp g' t' : set_base_path (unix false cwd) clean g t bp = (true, (g', t')) ->
  resolve false t' (start cwd (clean bp)) (steps (clean bp)) = At (leads cwd bp) /\ node_at t' (leads cwd bp) = Some fresh_dir.
Proof.
  intros H. apply user_base in H. destruct H as (t1 & M & _). apply made in M; [|apply rsteps_stepped].
  destruct M as (w & d & par & _ & _ & _ & _ & R & N & L & _). rewrite rev_involutive in R, L. rewrite leads_clean in L. rewrite L. auto.
Qed.

(** ** Histories of Dir and Src calls *)
Lemma calls_extend root cwd cs : Forall (fun c => match c with CallBase _ => False | _ => True end) cs ->
  forall w, extends (snd w) (snd (snd (do_calls (unix root cwd) clean cs w))) /\ base_path (fst (snd (do_calls (unix root cwd) clean cs w))) = base_path (fst w).
Proof.
  induction 1 as [|c cs Hc _ IH]; intros w; cbn [do_calls]; [split; [apply extends_refl|reflexivity]|].
  assert (D : extends (snd w) (snd (snd (do_call (unix root cwd) clean c w))) /\ base_path (fst (snd (do_call (unix root cwd) clean c w))) = base_path (fst w)).
  { destruct c as [bp|n|n]; [destruct Hc| |]; cbn [do_call].
    - unfold dir. destruct (base_path (fst w)) as [b|] eqn:B; [|split; [apply extends_refl|exact B]].
      destruct (match dirs (fst w) with Some d => existsb (path_eqb (clean (b ++ slash :: n))) d | None => false end); [split; [apply extends_refl|exact B]|].
      cbn [unix mkdir_all]. pose proof (make_dirs_extends root (snd w) (start cwd (clean (b ++ slash :: n))) (rev (steps (clean (b ++ slash :: n))))) as E.
      destruct (make_dirs root (snd w) (start cwd (clean (b ++ slash :: n))) (rev (steps (clean (b ++ slash :: n))))) as [ok t2]. cbn [snd] in E.
      destruct ok; cbn [negb]; [|split; [exact E|exact B]]. destruct (dirs (fst w)); (split; [exact E|first [exact B|reflexivity]]).
    - unfold src. destruct (existsb _ (srcs (fst w))); [split; [apply extends_refl|reflexivity]|]. cbn [unix create].
      pose proof (create_extends root cwd (snd w) (current_dir (fst w) ++ slash :: n)) as E.
      destruct (create_file root cwd (snd w) (current_dir (fst w) ++ slash :: n)) as [ok t2]. cbn [snd] in E. destruct ok; cbn [negb]; (split; [exact E|reflexivity]). }
  destruct (do_call (unix root cwd) clean c w) as [ok w1]. cbn [snd] in D. specialize (IH w1).
  destruct (do_calls (unix root cwd) clean cs w1) as [oks w2]. cbn [snd] in IH |- *. destruct D as [D1 D2], IH as [I1 I2].
  split; [exact (extends_trans _ _ _ D1 I1)|congruence].
Qed.
Lemma still_locked t t' l : extends t t' -> node_at t l = Some fresh_dir -> exists es, node_at t' l = Some (Dir false false false es).
Proof.
  intros E N. pose proof (E l (ADir false false false)) as H. unfold thing_at in H. rewrite N in H. specialize (H eq_refl).
  destruct (node_at t' l) as [[|r w x es]|]; try discriminate. injection H as -> -> ->. eauto.
Qed.
