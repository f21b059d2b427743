(** SetBasePath by a privileged process. *)
From Coq Require Import ZArith List Bool Lia.
From Verif Require Import Base Code Path PathSpec PathProofs CodeSpec PropsCode PropsPath UnixFs UnixFsProofs UnixFsProofs2.
Import ListNotations.
Open Scope Z_scope.

(** nothing resists *)
Lemma remove_tree_root : forall n pw px, remove_tree true pw px n = None.
Proof.
  fix F 1. intros [|r w x es] pw px; [reflexivity|]. cbn [remove_tree orb].
  assert (H : (fix go (es : list (list Z * node)) := match es with [] => [] | (nm, e) :: es => match remove_tree true w x e with Some e => [(nm, e)] | None => [] end ++ go es end) es = []).
  { revert es. fix G 1. intros [|[nm e] es]; [reflexivity|]. rewrite (F e w x). cbn [app]. apply G. }
  rewrite H. reflexivity.
Qed.

Definition named (w : list Z) : Prop := stepped w /\ w <> dotdot.
Lemma walk_named ns : Forall named ns -> forall l, fold_left walk (rev ns) l = ns ++ l.
Proof.
  induction 1 as [|w ns [A B] _ IH]; intros l; [reflexivity|]. cbn [rev]. rewrite fold_left_app, IH. cbn [fold_left app]. apply walk_name; assumption.
Qed.
Lemma resolve_named t from ns n : Forall named ns -> node_at t (ns ++ from) = Some n -> resolve true t from (rev ns) = At (ns ++ from).
Proof.
  intros F. revert n. induction F as [|w ns [A B] _ IH]; intros n N; [reflexivity|]. cbn [rev app] in *.
  destruct (node_parent _ _ _ _ N) as (pr & pw & px & es & P & E). rewrite resolve_snoc, (IH _ P), P. cbn [orb]. rewrite (walk_name _ w A B), N. reflexivity.
Qed.
Lemma is_dir_named t from ns : Forall named ns -> thing_at t (ns ++ from) <> None -> 
  is_dir true t from ns = match thing_at t (ns ++ from) with Some AFile => Some false | Some (ADir _ _ _) => Some true | None => None end.
Proof.
  intros F N. unfold is_dir. destruct (node_at t (ns ++ from)) as [n|] eqn:E; [|elim N; apply thing_node; exact E].
  rewrite (resolve_named _ _ _ _ F E), E. unfold thing_at. rewrite E. destruct n; reflexivity.
Qed.
(** when there is nothing, resolving fails: with ENOENT unless there is a file on the way *)
Lemma resolve_missing t from ns : Forall named ns -> ns <> [] -> node_at t (ns ++ from) = None ->
  (exists r w x, thing_at t from = Some (ADir r w x)) ->
  (forall a b, ns = a ++ b -> thing_at t (b ++ from) <> Some AFile) -> resolve true t from (rev ns) = NotExist.
Proof.
  intros F _ N D. induction F as [|w ns [A B] F IH]; intros NF.
  - destruct D as (r & w & x & D). unfold thing_at in D. cbn in N. rewrite N in D. discriminate.
  - cbn [rev app] in *. rewrite resolve_snoc. destruct (node_at t (ns ++ from)) as [[|pr pw px es]|] eqn:P.
    + elim (NF [w] ns eq_refl). unfold thing_at. rewrite P. reflexivity.
    + rewrite (resolve_named _ _ _ _ F P), P. cbn [orb]. rewrite (walk_name _ w A B), N. reflexivity.
    + rewrite IH; [reflexivity|reflexivity|]. intros a b E. apply (NF (w :: a) b). rewrite E. reflexivity.
Qed.
Lemma resolve_file t from ns a b : Forall named ns -> ns = a ++ b -> a <> [] -> thing_at t (b ++ from) = Some AFile -> resolve true t from (rev ns) = Failed.
Proof.
  intros F -> Na T. apply Forall_app in F. destruct F as [_ Fb]. rewrite rev_app_distr, resolve_app.
  unfold thing_at in T. destruct (node_at t (b ++ from)) as [[|]|] eqn:E; try discriminate. rewrite (resolve_named _ _ _ _ Fb E).
  destruct (rev a) as [|v vs] eqn:R; [apply (f_equal (@rev _)) in R; rewrite rev_involutive in R; cbn in R; congruence|]. cbn [resolve]. rewrite E. reflexivity.
Qed.

(** MkdirAll makes what is missing, and nothing else *)
Definition chain (from : place) (ns : list (list Z)) (l : place) : Prop := exists a b, ns = a ++ b /\ l = b ++ from.
Lemma make_dirs_root t from ns : Forall named ns -> (exists r w x, thing_at t from = Some (ADir r w x)) ->
  (forall l, chain from ns l -> thing_at t l <> Some AFile) -> exists t', make_dirs true t from ns = (true, t') /\ extends t t' /\
  (exists r w x, thing_at t' (ns ++ from) = Some (ADir r w x)) /\ (thing_at t (ns ++ from) = None -> node_at t' (ns ++ from) = Some fresh_dir) /\
  (forall l, thing_at t l = None -> thing_at t' l <> None -> chain from ns l).
Proof.
  intros F D NF. induction F as [|w ns [A B] F IH].
  - exists t. destruct D as (r & w & x & D). cbn [make_dirs app] in *. rewrite (is_dir_named t from []); [|constructor|cbn; congruence]. cbn [app]. rewrite D.
    repeat split; eauto; [apply extends_refl|intros H; congruence|intros l H K; congruence].
  - assert (NF' : forall l, chain from ns l -> thing_at t l <> Some AFile) by (intros l (a & b & E & ->); apply NF; exists (w :: a), b; rewrite E; auto).
    destruct (IH NF') as (t1 & M & E & (r1 & w1 & x1 & T1) & Fr & Ch). clear IH. cbn [make_dirs app].
    assert (Fw : Forall named (w :: ns)) by (constructor; [split; assumption|exact F]).
    destruct (thing_at t (w :: ns ++ from)) as [[|r2 w2 x2]|] eqn:T.
    + elim (NF (w :: ns ++ from)); [exists [], (w :: ns); auto|exact T].
    + rewrite (is_dir_named t from (w :: ns) Fw); cbn [app]; rewrite T; [|discriminate]. exists t.
      split; [reflexivity|]. split; [apply extends_refl|]. split; [eauto|]. split; [discriminate|]. intros l H K. congruence.
    + assert (I : is_dir true t from (w :: ns) = None).
      { unfold is_dir. destruct (resolve true t from (rev (w :: ns))) as [l| |] eqn:R; try reflexivity. apply resolve_walk in R.
        change (rev (w :: ns)) with (rev ns ++ [w]) in R. rewrite fold_left_app, (walk_named _ F) in R. cbn [fold_left] in R. rewrite (walk_name _ w A B) in R. subst l.
        apply thing_node in T. rewrite T. reflexivity. }
      rewrite I, M. cbn [negb]. unfold thing_at in T1. destruct (node_at t1 (ns ++ from)) as [[|pr pw px es]|] eqn:N1; try discriminate. injection T1 as -> -> ->.
      cbn [make_dir]. replace (path_eqb w dotdot) with false by (symmetry; apply not_true_iff_false; rewrite path_eqb_true; exact B).
      rewrite (resolve_named _ _ _ _ F N1), N1. cbn [orb].
      assert (N2 : node_at t1 (w :: ns ++ from) = None).
      { destruct (thing_at t1 (w :: ns ++ from)) as [th|] eqn:T2; [|apply thing_node; exact T2]. exfalso.
        destruct (Ch _ T ltac:(congruence)) as (a & b & Ea & Eb). apply (f_equal (@length _)) in Ea, Eb. cbn [length] in Eb. rewrite !app_length in *. lia. }
      cbn [node_at] in N2. rewrite N1 in N2. rewrite N2.
      assert (N3 : node_at t1 (w :: ns ++ from) = None) by (cbn [node_at]; rewrite N1; exact N2).
      assert (Rm : room t1 (w :: ns ++ from)) by (cbn; eauto).
      pose proof (put_inside t1 (w :: ns ++ from) fresh_dir Rm []) as Pn. cbn [app] in Pn.
      eexists. split; [reflexivity|]. split; [exact (extends_trans _ _ _ E (extends_put _ _ _ _ N3))|].
      split; [exists false, false, false; unfold thing_at; rewrite Pn; reflexivity|]. split; [intros _; exact Pn|].
      intros l H K. destruct (within_dec (w :: ns ++ from) l) as [[s ->]|W].
      * destruct s as [|v s] using rev_ind; [exists [], (w :: ns); auto|]. exfalso. clear IHs. apply K. apply thing_node.
        rewrite (put_inside _ _ _ Rm). rewrite node_at_app. reflexivity.
      * rewrite put_outside in K by exact W. destruct (Ch l H K) as (a & b & -> & ->). exists (w :: a), b. auto.
Qed.

(** The outcome of SetBasePath with names only. *)
Lemma names_base cwd g t bp ns : rev (steps (clean bp)) = ns -> Forall named ns -> ns <> [] -> let from := start cwd (clean bp) in
  (exists r w x, thing_at t from = Some (ADir r w x)) -> (forall l, chain from ns l -> thing_at t l <> Some AFile) ->
  exists g' t', set_base_path (unix true cwd) clean g t bp = (true, (g', t')) /\ node_at t' (ns ++ from) = Some fresh_dir /\
  (forall l x, ~ within (ns ++ from) l -> thing_at t l = Some x -> thing_at t' l = Some x) /\
  (forall l, ~ within (ns ++ from) l -> thing_at t l = None -> thing_at t' l <> None -> chain from ns l).
Proof.
  intros E F Ne from D NF. destruct ns as [|w ns]; [congruence|]. inversion F as [|? ? [A B] Fp]; subst. cbn [app] in *.
  unfold set_base_path. cbn [unix read_dir mkdir_all mkdir remove_all]. fold from. rewrite E.
  assert (Es : steps (clean bp) = rev (w :: ns)) by (rewrite <- E, rev_involutive; reflexivity).
  unfold os_read_dir. fold from. rewrite Es.
  destruct (node_at t (w :: ns ++ from)) as [nd|] eqn:N.
  - rewrite (resolve_named t from (w :: ns) nd F N). cbn [app]. rewrite N. destruct nd as [|r2 w2 x2 es2].
    { elim (NF (w :: ns ++ from)); [exists [], (w :: ns); auto|]. unfold thing_at. rewrite N. reflexivity. }
    cbn [orb]. destruct (node_parent _ _ _ _ N) as (pr & pw & px & es & P & En). cbn [remove_dirs]. rewrite (resolve_named t from ns _ Fp P), P. cbn [orb negb].
    replace (path_eqb w dotdot) with false by (symmetry; apply not_true_iff_false; rewrite path_eqb_true; exact B). rewrite En.
    rewrite remove_tree_root. match goal with |- context [if ?c then (true, ?u) else (true, ?v)] => replace (if c then (true, u) else (true, v)) with (true, u) by (destruct c; reflexivity) end.
    cbn [negb]. set (t1 := put t (w :: ns ++ from) None).
    assert (W : ~ within (w :: ns ++ from) (ns ++ from)) by apply not_within_below.
    assert (T1 : thing_at t1 (ns ++ from) = Some (ADir pr pw px)) by (unfold t1; rewrite put_outside by exact W; unfold thing_at; rewrite P; reflexivity).
    unfold thing_at in T1. destruct (node_at t1 (ns ++ from)) as [[|pr' pw' px' es']|] eqn:N1; try discriminate. injection T1 as -> -> ->.
    cbn [make_dir]. replace (path_eqb w dotdot) with false by (symmetry; apply not_true_iff_false; rewrite path_eqb_true; exact B).
    rewrite (resolve_named t1 from ns _ Fp N1), N1. cbn [orb].
    assert (N2 : node_at t1 (w :: ns ++ from) = None) by (apply (put_none_inside t w (ns ++ from) []); eauto).
    assert (N2' := N2). cbn [node_at] in N2'. rewrite N1 in N2'. rewrite N2'.
    assert (Rm : room t1 (w :: ns ++ from)) by (cbn; eauto).
    eexists. eexists. split; [reflexivity|]. split; [exact (put_inside t1 (w :: ns ++ from) fresh_dir Rm [])|]. split.
    + intros l x Wl Tl. rewrite put_outside by exact Wl. unfold t1. rewrite put_outside by exact Wl. exact Tl.
    + intros l Wl Tl K. rewrite put_outside in K by exact Wl. unfold t1 in K. rewrite put_outside in K by exact Wl. congruence.
  - rewrite (resolve_missing t from (w :: ns) F ltac:(discriminate) N D) by (intros a b Eab; apply NF; exists a, b; auto).
    destruct (make_dirs_root t from (w :: ns) F D NF) as (t' & M & X & _ & Fr & Ch). rewrite M. eexists. exists t'. split; [reflexivity|].
    split; [apply Fr; apply thing_node; exact N|]. split; [intros l x _ Tl; apply X; exact Tl|intros l _; apply Ch].
Qed.
(** a file on the way *)
Lemma file_base cwd g t bp ns l : rev (steps (clean bp)) = ns -> Forall named ns -> let from := start cwd (clean bp) in
  chain from ns l -> thing_at t l = Some AFile -> exists g', set_base_path (unix true cwd) clean g t bp = (false, (g', t)).
Proof.
  intros E F from (a & b & Eab & ->) T. unfold set_base_path. cbn [unix read_dir mkdir_all mkdir remove_all].
  assert (Es : steps (clean bp) = rev ns) by (rewrite <- E, rev_involutive; reflexivity).
  assert (H : os_read_dir true cwd t (clean bp) = RdOther).
  { unfold os_read_dir. fold from. rewrite Es. destruct a as [|x a].
    - cbn [app] in Eab. subst b. unfold thing_at in T. destruct (node_at t (ns ++ from)) as [[|]|] eqn:N; try discriminate.
      rewrite (resolve_named t from ns _ F N), N. reflexivity.
    - rewrite (resolve_file t from ns (x :: a) b F Eab ltac:(discriminate) T). reflexivity. }
  rewrite H. eauto.
Qed.

(** ** Paths that do not end in a name *)
Lemma dot_base root cwd g t bp : clean bp = dot -> exists g', set_base_path (unix root cwd) clean g t bp = (false, (g', t)).
Proof.
  intros E. unfold set_base_path. rewrite E. cbn [unix read_dir mkdir_all mkdir remove_all]. change (steps dot) with (@nil (list Z)). cbn [rev].
  destruct (os_read_dir root cwd t dot) eqn:R; cbn [remove_dirs rooted dot]; cbn.
  - eauto.
  - pose proof R as R'. unfold os_read_dir in R'. change (steps dot) with (@nil (list Z)) in R'. cbn [resolve] in R'. unfold is_dir. cbn [rev resolve].
    destruct (node_at t (start cwd dot)) as [[|r w x es]|] eqn:N; [discriminate|destruct (root || r); discriminate|]. change cwd with (start cwd dot). rewrite N. eauto.
  - eauto.
Qed.
Lemma node_tl t l n : node_at t l = Some n -> exists m, node_at t (tl l) = Some m.
Proof. destruct l as [|w l]; cbn [tl]; [eauto|]. intros H. apply node_parent in H. destruct H as (? & ? & ? & ? & H & _). eauto. Qed.
Lemma dir_tl t l r w x es : node_at t l = Some (Dir r w x es) -> exists r' w' x' es', node_at t (tl l) = Some (Dir r' w' x' es').
Proof. destruct l as [|v l]; cbn [tl]; [eauto 8|]. intros H. apply node_parent in H. destruct H as (? & ? & ? & ? & H & _). eauto 8. Qed.
Lemma resolve_up t k : forall l r w x es, node_at t l = Some (Dir r w x es) -> resolve true t l (repeat dotdot k) = At (skipn k l) /\
  exists r' w' x' es', node_at t (skipn k l) = Some (Dir r' w' x' es').
Proof.
  induction k as [|k IH]; intros l r w x es N; [cbn; eauto 8|]. cbn [repeat resolve]. rewrite N. cbn [orb]. change (walk l dotdot) with (tl l).
  destruct (dir_tl _ _ _ _ _ _ N) as (r' & w' & x' & es' & N'). rewrite N'. destruct (IH _ _ _ _ _ N') as [R X]. rewrite R. destruct l as [|v l]; [|auto].
  cbn [tl] in *. assert (K : skipn k (@nil (list Z)) = []) by (destruct k; reflexivity). rewrite K in *. auto.
Qed.
Lemma empty_out_root r w x es : empty_out true (Dir r w x es) = Dir r w x [].
Proof. unfold empty_out. rewrite remove_tree_root. reflexivity. Qed.
