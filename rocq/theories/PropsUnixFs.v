(** Property C104: generating code on a Unix file system with permissions. *)
From Coq Require Import ZArith List Bool Lia.
From Verif Require Import Base Code Path PathSpec PathProofs CodeSpec PropsCode PropsPath UnixFs UnixFsSpec UnixFsProofs UnixFsProofs2 UnixFsProofs3 UnixFsProofs4.
Import ListNotations.
Open Scope Z_scope.

(** ** Names *)
Lemma norm_names rt ws : Forall (fun w => w <> dotdot) ws -> forall k ns, fold_left (norm_step rt) ws (k, ns) =
  (k, rev (filter (fun w => if list_eq_dec Z.eq_dec w [] then false else if list_eq_dec Z.eq_dec w dot then false else true) ws) ++ ns).
Proof.
  induction 1 as [|w ws H _ IH]; intros k ns; [reflexivity|]. cbn [fold_left filter]. unfold norm_step at 2.
  destruct (list_eq_dec Z.eq_dec w []); [apply IH|]. destruct (list_eq_dec Z.eq_dec w dot); [apply IH|]. destruct (list_eq_dec Z.eq_dec w dotdot); [congruence|].
  rewrite IH. cbn [rev]. rewrite <- app_assoc. reflexivity.
Qed.
Lemma steps_below b n : b <> [] -> Forall (fun w => w <> dotdot) (parts n) -> steps (clean (b ++ slash :: n)) = steps (clean b) ++ steps n /\ rooted (b ++ slash :: n) = rooted b.
Proof.
  intros N F. assert (R : rooted (b ++ slash :: n) = rooted b) by (destruct b; [congruence|reflexivity]). split; [|exact R].
  rewrite !steps_clean by (destruct b; [congruence|discriminate]). unfold norm. rewrite R, parts_concat, fold_left_app.
  destruct (fold_left (norm_step (rooted b)) (parts b) (0%nat, [])) as [k ns]. rewrite (norm_names _ _ F). cbn [fst snd].
  rewrite rev_app_distr, rev_involutive, app_assoc. reflexivity.
Qed.
Lemma names_named cwd bp : ~ In dotdot (steps (clean bp)) -> Forall named (rev (steps (clean bp))) /\ leads cwd bp = rev (steps (clean bp)) ++ start cwd (clean bp).
Proof.
  intros N. assert (F : Forall named (rev (steps (clean bp)))).
  { apply Forall_forall. intros x I. apply in_rev in I. split; [exact (proj1 (Forall_forall _ _) (steps_stepped _) x I)|congruence]. }
  split; [exact F|]. rewrite <- leads_clean, <- (walk_named _ F), rev_involutive. reflexivity.
Qed.
Lemma start_clean cwd bp : start cwd (clean bp) = start cwd bp.
Proof. destruct bp as [|c bp]; [reflexivity|]. unfold start. rewrite clean_rooted by discriminate. reflexivity. Qed.
Lemma resolve_user t from ns : Forall named ns -> (forall l, chain from ns l -> l <> ns ++ from -> exists r w, thing_at t l = Some (ADir r w true)) ->
  thing_at t (ns ++ from) <> None -> resolve false t from (rev ns) = At (ns ++ from).
Proof.
  intros F. induction F as [|w ns [A B] F IH]; intros D T; [reflexivity|]. cbn [rev app] in *.
  assert (Ls : forall b : list (list Z), (length b <= length ns)%nat -> w :: ns ++ from <> b ++ from).
  { intros b L E. apply (f_equal (@length _)) in E. cbn [length] in E. rewrite !app_length in E. lia. }
  destruct (D (ns ++ from)) as (r & w' & Dn); [exists [w], ns; auto|apply not_eq_sym, Ls; auto|].
  rewrite resolve_snoc, IH.
  - unfold thing_at in Dn. destruct (node_at t (ns ++ from)) as [[|? ? ? ?]|]; try discriminate. injection Dn as -> -> ->. cbn [orb]. rewrite (walk_name _ w A B).
    destruct (node_at t (w :: ns ++ from)) eqn:N; [reflexivity|]. elim T. apply thing_node. exact N.
  - intros l (a & b & E & ->) _. apply D; [exists (w :: a), b; rewrite E; auto|]. apply not_eq_sym, Ls. rewrite E, app_length. lia.
  - congruence.
Qed.

(** ** C104.  An unprivileged process.
    SetBasePath of a missing directory makes it if the directory above is there, writable and reachable, ... *)
Theorem C104_fresh cwd g t bp w d r : ~ In dotdot (steps (clean bp)) -> leads cwd bp = w :: d -> within (start cwd bp) d ->
  (forall l, within (start cwd bp) l -> within l d -> exists r w, thing_at t l = Some (ADir r w true)) ->
  thing_at t d = Some (ADir r true true) -> thing_at t (w :: d) = None ->
  exists g' t', set_base_path (unix false cwd) clean g t bp = (true, (g', t')) /\ thing_at t' (w :: d) = Some (ADir false false false) /\
    forall l, l <> w :: d -> thing_at t' l = thing_at t l.
Proof.
  intros Nd L Wd Ds Td Tn. destruct (names_named cwd bp Nd) as [F E]. rewrite start_clean in E. rewrite L in E.
  destruct (rev (steps (clean bp))) as [|w' par] eqn:R.
  { exfalso. cbn [app] in E. rewrite <- E in Wd. destruct Wd as [s Es]. apply (f_equal (@length _)) in Es. rewrite app_length in Es. cbn [length] in Es. lia. }
  cbn [app] in E. injection E as <- ->. inversion F as [|? ? [A B] Fp]; subst.
  assert (Es : steps (clean bp) = rev par ++ [w]) by (rewrite <- (rev_involutive (steps _)), R; reflexivity).
  set (from := start cwd bp) in *.
  assert (Rp : resolve false t from (rev par) = At (par ++ from)).
  { apply resolve_user; [exact Fp| |congruence]. intros l (a & b & E & ->) _. apply Ds; [exists b; reflexivity|exists a; rewrite E, app_assoc; reflexivity]. }
  unfold thing_at in Td. destruct (node_at t (par ++ from)) as [[|? ? ? es]|] eqn:N; try discriminate. injection Td as -> -> ->.
  apply thing_node in Tn. assert (Rm : room t (w :: par ++ from)) by (cbn; eauto).
  unfold set_base_path. cbn [unix read_dir mkdir_all]. unfold os_read_dir. rewrite start_clean. fold from. rewrite Es, resolve_snoc, Rp, N. cbn [orb].
  rewrite (walk_name _ w A B), Tn. rewrite rev_app_distr, rev_involutive. cbn [rev app make_dirs].
  assert (I : is_dir false t from (w :: par) = None) by (unfold is_dir; cbn [rev]; rewrite resolve_snoc, Rp, N; cbn [orb]; rewrite (walk_name _ w A B), Tn; reflexivity).
  rewrite I. assert (M : make_dirs false t from par = (true, t)) by (destruct par; cbn [make_dirs]; unfold is_dir; rewrite Rp, N; reflexivity).
  rewrite M. cbn [negb make_dir]. replace (path_eqb w dotdot) with false by (symmetry; apply not_true_iff_false; rewrite path_eqb_true; exact B).
  rewrite Rp, N. cbn [orb andb]. assert (Tn' := Tn). cbn [node_at] in Tn'. rewrite N in Tn'. rewrite Tn'.
  eexists. eexists. split; [reflexivity|]. split; [rewrite put_thing by exact Rm; reflexivity|]. intros l Nl.
  destruct (within_dec (w :: par ++ from) l) as [[s ->]|W]; [|apply put_outside; exact W].
  destruct s as [|v s _] using rev_ind; [elim Nl; reflexivity|]. unfold thing_at. rewrite (put_inside _ _ _ Rm), !node_at_app, Tn. reflexivity.
Qed.
(** ... but with no permissions at all, so that (finding) the next run cannot replace it: after a SetBasePath that returned, and any
    calls of Dir and Src, SetBasePath of the same path panics and changes nothing, whatever generator it is called on. *)
Theorem C104_rerun_refuted cwd g t bp g' t' g2 cs g3 : set_base_path (unix false cwd) clean g t bp = (true, (g', t')) ->
  Forall (fun c => match c with CallBase _ => False | _ => True end) cs ->
  let t2 := snd (snd (do_calls (unix false cwd) clean cs (g2, t'))) in
  exists g4, set_base_path (unix false cwd) clean g3 t2 bp = (false, (g4, t2)).
Proof.
  intros H F t2. destruct (user_locked _ _ _ _ _ _ H) as [R N]. destruct (calls_extend false cwd cs F (g2, t')) as [X _]. cbn [snd] in X. fold t2 in X.
  destruct (still_locked _ _ _ X N) as [es N2]. unfold set_base_path. cbn [unix read_dir].
  assert (K : os_read_dir false cwd t2 (clean bp) = RdOther) by (unfold os_read_dir; rewrite (resolve_At _ _ _ _ _ _ X R), N2; reflexivity).
  rewrite K. eauto.
Qed.
(** Finding: no directory can be made below it: Dir leaves the file system as it is (and panics), for every name without double dots. *)
Theorem C104_dir_refuted cwd t bp cs oks g2 t2 n : do_calls (unix false cwd) clean (CallBase bp :: cs) (new_generator, t) = (true :: oks, (g2, t2)) ->
  Forall (fun c => match c with CallBase _ => False | _ => True end) cs -> Forall (fun w => w <> dotdot) (parts n) ->
  exists g3, dir (unix false cwd) clean g2 t2 n = (false, (g3, t2)).
Proof.
  intros H F Fn. cbn [do_calls do_call fst snd] in H. destruct (set_base_path (unix false cwd) clean new_generator t bp) as [ok [g' t']] eqn:B.
  destruct (do_calls (unix false cwd) clean cs (g', t')) as [oks' w2] eqn:C. injection H as -> -> ->.
  destruct (user_locked _ _ _ _ _ _ B) as [R N]. destruct (calls_extend false cwd cs F (g', t')) as [X Eb]. rewrite C in X, Eb. cbn [fst snd] in X, Eb.
  destruct (still_locked _ _ _ X N) as [es N2].
  assert (Nb : bp <> []). { intros ->. destruct (dot_base false cwd new_generator t [] C99_empty) as [gx Hx]. rewrite Hx in B. discriminate. }
  assert (Eg : base_path g' = Some bp).
  { unfold set_base_path in B. cbn [unix read_dir mkdir_all mkdir remove_all base_path new_generator] in B. destruct (os_read_dir false cwd t (clean bp)).
    - destruct (remove_dirs _ _ _ _ _ _) as [[] ta]; cbn [negb] in B; [|discriminate]. destruct (make_dir _ _ _ _) as [b1 tb]. injection B as _ <- _. reflexivity.
    - destruct (make_dirs _ _ _ _) as [b1 tb]. injection B as _ <- _. reflexivity.
    - discriminate. }
  destruct (steps_below bp n Nb Fn) as [St Ro]. unfold dir. rewrite Eb, Eg.
  destruct (match dirs g2 with Some d => existsb (path_eqb (clean (bp ++ slash :: n))) d | None => false end); [eauto|].
  cbn [unix mkdir_all]. rewrite St, rev_app_distr.
  replace (start cwd (clean (bp ++ slash :: n))) with (start cwd (clean bp)) by (rewrite !start_clean; unfold start; rewrite Ro; reflexivity).
  assert (M : snd (make_dirs false t2 (start cwd (clean bp)) (rev (steps n) ++ rev (steps (clean bp)))) = t2).
  { assert (R2 : resolve false t2 (start cwd (clean bp)) (rev (rev (steps (clean bp)))) = At (leads cwd bp)) by (rewrite rev_involutive; exact (resolve_At _ _ _ _ _ _ X R)).
    destruct (rev (steps n)) as [|v vs] eqn:E.
    - cbn [app]. destruct (rev (steps (clean bp))) as [|v vs]; cbn [make_dirs]; unfold is_dir; rewrite R2, N2; reflexivity.
    - rewrite (blocked _ _ _ _ _ (v :: vs) R2 N2) by discriminate. reflexivity. }
  destruct (make_dirs false t2 (start cwd (clean bp)) (rev (steps n) ++ rev (steps (clean bp)))) as [ok tm]. cbn [snd] in M. subst tm.
  destruct ok; cbn [negb]; [|eauto].
  assert (Dn : dirs g2 = None). { pose proof (C87_dir_always_panics_refuted (unix false cwd) clean (CallBase bp :: cs) t n) as P. cbn zeta in P.
    cbn [do_calls do_call fst snd] in P. rewrite B, C in P. cbn [fst snd] in P. destruct P as [P _]. unfold dir in P. rewrite Eb, Eg in P.
    destruct (dirs g2) as [dl|] eqn:Ed; [|reflexivity]. exfalso.
    assert (Q : forall cs w, dirs (fst w) = None -> dirs (fst (snd (do_calls (unix false cwd) clean cs w))) = None).
    { clear. induction cs as [|c cs IH]; intros w Hw; [exact Hw|]. cbn [do_calls].
      assert (D1 : dirs (fst (snd (do_call (unix false cwd) clean c w))) = None).
      { destruct c; cbn [do_call].
        - unfold set_base_path. destruct (base_path (fst w)); destruct (read_dir (unix false cwd) (snd w) (clean bp));
            repeat match goal with |- context [let '(_, _) := ?e in _] => destruct e as [[] ?]; cbn [negb] end; exact Hw.
        - unfold dir. destruct (base_path (fst w)); [|exact Hw]. rewrite Hw. destruct (mkdir_all _ _ _) as [[] ?]; exact Hw.
        - unfold src. destruct (existsb _ _); [exact Hw|]. destruct (create _ _ _) as [[] ?]; exact Hw. }
      destruct (do_call (unix false cwd) clean c w) as [ok w1]. specialize (IH w1 D1). destruct (do_calls (unix false cwd) clean cs w1). exact IH. }
    specialize (Q (CallBase bp :: cs) (new_generator, t) eq_refl). cbn [do_calls do_call fst snd] in Q. rewrite B, C in Q. cbn [fst snd] in Q. congruence. }
  rewrite Dn. eauto.
Qed.
(** SetBasePath of a directory that is there and can be listed: what can be removed is removed, whether or not the call succeeds; it
    succeeds exactly when that is everything, and then the directory is there, empty and without permissions; nothing else changes.
    So (finding) a single file that cannot be removed makes SetBasePath panic after the rest is gone, and a directory whose parent
    cannot be written is emptied before the panic. *)
Theorem C104_replace cwd g t bp w d pw : proper t -> ~ In dotdot (steps (clean bp)) -> leads cwd bp = w :: d -> within (start cwd bp) d ->
  (forall l, within (start cwd bp) l -> within l d -> exists r w, thing_at t l = Some (ADir r w true)) ->
  thing_at t d = Some (ADir true pw true) -> (exists w' x', thing_at t (w :: d) = Some (ADir true w' x')) ->
  exists ok g' t', set_base_path (unix false cwd) clean g t bp = (ok, (g', t')) /\ (forall l, ~ within (w :: d) l -> thing_at t' l = thing_at t l) /\
    (ok = true <-> ~ kept t (w :: d) (w :: d)) /\
    (ok = true -> thing_at t' (w :: d) = Some (ADir false false false) /\ forall l, within (w :: d) l -> l <> w :: d -> thing_at t' l = None) /\
    (ok = false -> forall l, within (w :: d) l -> kept t (w :: d) l /\ thing_at t' l = thing_at t l \/ ~ kept t (w :: d) l /\ thing_at t' l = None).
Proof.
  intros Pr Nd L Wd Ds Td (bw & bx & Tb). destruct (names_named cwd bp Nd) as [F E]. rewrite start_clean in E. rewrite L in E.
  destruct (rev (steps (clean bp))) as [|w' par] eqn:R.
  { exfalso. cbn [app] in E. rewrite <- E in Wd. destruct Wd as [s Es]. apply (f_equal (@length _)) in Es. rewrite app_length in Es. cbn [length] in Es. lia. }
  cbn [app] in E. injection E as <- ->. inversion F as [|? ? [A B] Fp]; subst.
  assert (Es : steps (clean bp) = rev par ++ [w]) by (rewrite <- (rev_involutive (steps _)), R; reflexivity).
  set (from := start cwd bp) in *.
  assert (Rp : resolve false t from (rev par) = At (par ++ from)).
  { apply resolve_user; [exact Fp| |congruence]. intros l (a & b & E & ->) _. apply Ds; [exists b; reflexivity|exists a; rewrite E, app_assoc; reflexivity]. }
  assert (Td' := Td). unfold thing_at in Td'. destruct (node_at t (par ++ from)) as [[|? ? ? es]|] eqn:N; try discriminate. injection Td' as -> -> ->.
  assert (Tb' := Tb). unfold thing_at in Tb'. destruct (node_at t (w :: par ++ from)) as [n|] eqn:Nb; try discriminate.
  assert (Rm : room t (w :: par ++ from)) by (cbn; eauto).
  assert (En : entry w es = Some n) by (assert (Q := Nb); cbn [node_at] in Q; rewrite N in Q; exact Q).
  assert (Kp : forall p, keeps pw true n p <-> kept t (w :: par ++ from) (rev p ++ w :: par ++ from)) by (intros p; apply (keeps_kept t p w (par ++ from) n true pw true Td Nb)).
  assert (Sp := remove_spec n (proper_neat _ _ _ Pr Nb) pw true).
  assert (Rd : exists o, remove_dirs false cwd t (rooted (clean bp)) from (w :: par) = (match o with None => true | Some _ => false end, put t (w :: par ++ from) o) /\
    match o with None => ~ kept t (w :: par ++ from) (w :: par ++ from)
    | Some m => kept t (w :: par ++ from) (w :: par ++ from) /\ forall p, keeps pw true n p /\ kind (below m p) = kind (below n p) \/ ~ keeps pw true n p /\ below m p = None end).
  { exists (remove_tree false pw true n). split.
    - cbn [remove_dirs]. rewrite Rp, N. cbn [orb negb]. replace (path_eqb w dotdot) with false by (symmetry; apply not_true_iff_false; rewrite path_eqb_true; exact B).
      rewrite En. destruct (empty_node n && pw) eqn:Q; [|reflexivity]. apply andb_true_iff in Q as [Q ->]. destruct n as [|r2 w2 x2 es2]; [reflexivity|]. destruct es2; [|discriminate].
      rewrite remove_dir. cbn [go andb]. destruct r2; reflexivity.
    - destruct (remove_tree false pw true n) as [m|]; [|apply (fun H => H (Kp [])) in Sp || (specialize (Sp []); rewrite (Kp []) in Sp; exact Sp)].
      split; [|exact Sp]. destruct (Sp []) as [[K _]|[_ K]]; [apply (Kp []); exact K|discriminate]. }
  destruct Rd as (o & Rd & Ro). unfold set_base_path. cbn [unix read_dir mkdir_all mkdir remove_all]. unfold os_read_dir. rewrite start_clean. fold from.
  rewrite Es, resolve_snoc, Rp, N. cbn [orb]. rewrite (walk_name _ w A B), Nb. rewrite Nb. destruct n as [|r2 w2 x2 es2]; [discriminate|]. injection Tb' as -> -> ->. cbn [orb].
  rewrite rev_app_distr, rev_involutive. cbn [rev app]. rewrite Rd. destruct o as [m|]; cbn [negb].
  - destruct Ro as [K Ro]. eexists. eexists. eexists. split; [reflexivity|]. split; [intros l Wl; apply put_outside; exact Wl|]. split; [split; [discriminate|intros X; elim X; exact K]|].
    split; [discriminate|]. intros _ l [s ->]. rewrite <- (rev_involutive s). specialize (Ro (rev s)). rewrite (Kp (rev s)) in Ro.
    rewrite (kind_thing t _ _ _ Nb). unfold thing_at. rewrite (put_inside t _ m Rm). assert (Nm := node_below m (rev s) []). rewrite app_nil_r in Nm. cbn [node_at] in Nm. rewrite Nm.
    destruct Ro as [[K1 K2]|[K1 K2]]; [left|right]; (split; [exact K1|]); [exact K2|rewrite K2; reflexivity].
  - set (t1 := put t (w :: par ++ from) None). assert (W : ~ within (w :: par ++ from) (par ++ from)) by apply not_within_below.
    assert (T1 : thing_at t1 (par ++ from) = Some (ADir true pw true)) by (unfold t1; rewrite put_outside by exact W; exact Td).
    assert (Rp1 : resolve false t1 from (rev par) = At (par ++ from)).
    { apply resolve_user; [exact Fp| |congruence]. intros l (a & b & E & ->) _. unfold t1. rewrite put_outside.
      - apply Ds; [exists b; reflexivity|exists a; rewrite E, app_assoc; reflexivity].
      - intros [c Ec]. apply (f_equal (@length _)) in Ec. rewrite E in Ec. rewrite !app_length in Ec. cbn [length] in Ec. rewrite !app_length in Ec. lia. }
    assert (pw = true).
    { destruct pw; [reflexivity|]. elim Ro. exists (w :: par ++ from). split; [exists []; reflexivity|]. split; [congruence|]. intros [[r Q] _]. cbn [tl] in Q. congruence. }
    subst pw. unfold thing_at in T1. destruct (node_at t1 (par ++ from)) as [[|? ? ? es1]|] eqn:N1; try discriminate. injection T1 as -> -> ->.
    cbn [make_dir]. replace (path_eqb w dotdot) with false by (symmetry; apply not_true_iff_false; rewrite path_eqb_true; exact B). rewrite Rp1, N1. cbn [orb andb].
    assert (N2 : node_at t1 (w :: par ++ from) = None) by (apply (put_none_inside t w (par ++ from) []); eauto 6).
    assert (N2' := N2). cbn [node_at] in N2'. rewrite N1 in N2'. rewrite N2'. assert (Rm1 : room t1 (w :: par ++ from)) by (cbn; eauto).
    eexists. eexists. eexists. split; [reflexivity|]. split; [intros l Wl; rewrite put_outside by exact Wl; unfold t1; apply put_outside; exact Wl|].
    split; [split; [intros _; exact Ro|reflexivity]|]. split; [|discriminate]. intros _. split; [rewrite put_thing by exact Rm1; reflexivity|].
    intros l [s ->] Ns. unfold thing_at. rewrite (put_inside t1 _ fresh_dir Rm1). destruct s as [|v s _] using rev_ind; [elim Ns; reflexivity|]. rewrite node_at_app. reflexivity.
Qed.
(** If the directory above cannot be listed, only an empty directory is replaced; otherwise nothing changes. *)
Theorem C104_replace_unlisted cwd g t bp w d pw w' x' : ~ In dotdot (steps (clean bp)) -> leads cwd bp = w :: d -> within (start cwd bp) d ->
  (forall l, within (start cwd bp) l -> within l d -> exists r w, thing_at t l = Some (ADir r w true)) ->
  thing_at t d = Some (ADir false pw true) -> thing_at t (w :: d) = Some (ADir true w' x') ->
  let replaceable := pw = true /\ forall l, within (w :: d) l -> l <> w :: d -> thing_at t l = None in
  (replaceable -> exists g' t', set_base_path (unix false cwd) clean g t bp = (true, (g', t')) /\ thing_at t' (w :: d) = Some (ADir false false false) /\
     forall l, l <> w :: d -> thing_at t' l = thing_at t l) /\
  (~ replaceable -> exists g', set_base_path (unix false cwd) clean g t bp = (false, (g', t))).
Proof.
  intros Nd L Wd Ds Td Tb. destruct (names_named cwd bp Nd) as [F E]. rewrite start_clean in E. rewrite L in E.
  destruct (rev (steps (clean bp))) as [|v par] eqn:R.
  { exfalso. cbn [app] in E. rewrite <- E in Wd. destruct Wd as [s Es]. apply (f_equal (@length _)) in Es. rewrite app_length in Es. cbn [length] in Es. lia. }
  cbn [app] in E. injection E as <- ->. inversion F as [|? ? [A B] Fp]; subst.
  assert (Es : steps (clean bp) = rev par ++ [w]) by (rewrite <- (rev_involutive (steps _)), R; reflexivity).
  set (from := start cwd bp) in *.
  assert (Rp : resolve false t from (rev par) = At (par ++ from)).
  { apply resolve_user; [exact Fp| |congruence]. intros l (a & b & E & ->) _. apply Ds; [exists b; reflexivity|exists a; rewrite E, app_assoc; reflexivity]. }
  assert (Td' := Td). unfold thing_at in Td'. destruct (node_at t (par ++ from)) as [[|? ? ? es]|] eqn:N; try discriminate. injection Td' as -> -> ->.
  assert (Tb' := Tb). unfold thing_at in Tb'. destruct (node_at t (w :: par ++ from)) as [[|r2 w2 x2 es2]|] eqn:Nb; try discriminate. injection Tb' as -> -> ->.
  assert (En : entry w es = Some (Dir true w' x' es2)) by (assert (Q := Nb); cbn [node_at] in Q; rewrite N in Q; exact Q).
  assert (Em : (forall l, within (w :: par ++ from) l -> l <> w :: par ++ from -> thing_at t l = None) <-> es2 = []).
  { split.
    - intros H. apply entries_none. intros v. assert (X : thing_at t (v :: w :: par ++ from) = None).
      { apply H; [exists [v]; reflexivity|]. intros X. apply (f_equal (@length _)) in X. cbn [length] in X. lia. }
      apply thing_node in X. change (match node_at t (w :: par ++ from) with Some (Dir _ _ _ es) => entry v es | _ => None end = None) in X. rewrite Nb in X. exact X.
    - intros -> l [s ->] Ns. apply thing_node. destruct s as [|v s _] using rev_ind; [elim Ns; reflexivity|]. rewrite node_at_app, Nb, node_at_app. reflexivity. }
  assert (Rd : remove_dirs false cwd t (rooted (clean bp)) from (w :: par) = if empty_node (Dir true w' x' es2) && pw then (true, put t (w :: par ++ from) None) else (false, t)).
  { cbn [remove_dirs]. rewrite Rp, N. cbn [orb negb]. replace (path_eqb w dotdot) with false by (symmetry; apply not_true_iff_false; rewrite path_eqb_true; exact B). rewrite En. reflexivity. }
  unfold set_base_path. cbn [unix read_dir mkdir_all mkdir remove_all]. unfold os_read_dir. rewrite start_clean. fold from.
  rewrite Es, resolve_snoc, Rp, N. cbn [orb]. rewrite (walk_name _ w A B), Nb. rewrite Nb. cbn [orb]. rewrite rev_app_distr, rev_involutive. cbn [rev app]. rewrite Rd. rewrite Em. cbn [empty_node].
  split.
  - intros [-> ->]. cbn [andb negb]. set (t1 := put t (w :: par ++ from) None). assert (W : ~ within (w :: par ++ from) (par ++ from)) by apply not_within_below.
    assert (T1 : thing_at t1 (par ++ from) = Some (ADir false true true)) by (unfold t1; rewrite put_outside by exact W; exact Td).
    assert (Rp1 : resolve false t1 from (rev par) = At (par ++ from)).
    { apply resolve_user; [exact Fp| |congruence]. intros l (a & b & E & ->) _. unfold t1. rewrite put_outside.
      - apply Ds; [exists b; reflexivity|exists a; rewrite E, app_assoc; reflexivity].
      - intros [c Ec]. apply (f_equal (@length _)) in Ec. rewrite E in Ec. rewrite !app_length in Ec. cbn [length] in Ec. rewrite !app_length in Ec. lia. }
    unfold thing_at in T1. destruct (node_at t1 (par ++ from)) as [[|? ? ? es1]|] eqn:N1; try discriminate. injection T1 as -> -> ->.
    cbn [make_dir]. replace (path_eqb w dotdot) with false by (symmetry; apply not_true_iff_false; rewrite path_eqb_true; exact B). rewrite Rp1, N1. cbn [orb andb].
    assert (N2 : node_at t1 (w :: par ++ from) = None) by (apply (put_none_inside t w (par ++ from) []); eauto 6).
    assert (N2' := N2). cbn [node_at] in N2'. rewrite N1 in N2'. rewrite N2'. assert (Rm1 : room t1 (w :: par ++ from)) by (cbn; eauto).
    eexists. eexists. split; [reflexivity|]. split; [rewrite put_thing by exact Rm1; reflexivity|]. intros l Nl.
    destruct (within_dec (w :: par ++ from) l) as [[s ->]|Wl]; [|rewrite put_outside by exact Wl; unfold t1; apply put_outside; exact Wl].
    rewrite (proj2 Em eq_refl) by (eauto; exists s; reflexivity). unfold thing_at. rewrite (put_inside t1 _ fresh_dir Rm1). destruct s as [|v s _] using rev_ind; [elim Nl; reflexivity|]. rewrite node_at_app. reflexivity.
  - intros H. replace (match es2 with [] => true | _ :: _ => false end && pw) with false; [eexists; reflexivity|]. symmetry. apply not_true_iff_false. intros X. apply H. apply andb_true_iff in X as [X ->]. destruct es2; [auto|discriminate].
Qed.
(** Finding: if the directory above is missing too, SetBasePath panics, ... *)
Theorem C104_nested_refuted cwd g t bp : thing_at t (tl (leads cwd bp)) = None -> fst (set_base_path (unix false cwd) clean g t bp) = false.
Proof.
  intros T. destruct (set_base_path (unix false cwd) clean g t bp) as [[] [g' t']] eqn:H; [|reflexivity]. exfalso.
  apply thing_node in T. apply user_base in H. destruct H as (t1 & M & O). apply made in M; [|apply rsteps_stepped].
  destruct M as (w & d & par & E & R & (pr & pw & px & es & N) & _ & _ & _ & L & _). rewrite rev_involutive, leads_clean in L. rewrite L in T. cbn [tl] in T.
  destruct O as [->|O]; [congruence|]. unfold os_read_dir in O. destruct (resolve false t (start cwd (clean bp)) (steps (clean bp))) as [l| |] eqn:Rl; try discriminate.
  apply resolve_walk in Rl. rewrite leads_clean, L in Rl. subst l. destruct (node_at t (w :: d)) as [nd|] eqn:Nw; [|discriminate].
  apply node_parent in Nw. destruct Nw as (? & ? & ? & ? & Nw & _). congruence.
Qed.
(** ... and leaves the first of the missing directories behind, without permissions. *)
Theorem C104_nested_leftover_refuted cwd g t bp a w d r : ~ In dotdot (steps (clean bp)) -> leads cwd bp = a ++ w :: d -> a <> [] -> within (start cwd bp) d ->
  (forall l, within (start cwd bp) l -> within l d -> exists r w, thing_at t l = Some (ADir r w true)) ->
  thing_at t d = Some (ADir r true true) -> thing_at t (w :: d) = None ->
  exists g' t', set_base_path (unix false cwd) clean g t bp = (false, (g', t')) /\ thing_at t' (w :: d) = Some (ADir false false false) /\
    forall l, l <> w :: d -> thing_at t' l = thing_at t l.
Proof.
  intros Nd L Na [b ->] Ds Td Tn. destruct (names_named cwd bp Nd) as [F E]. rewrite start_clean in E. rewrite L in E. set (from := start cwd bp) in *.
  assert (E2 : rev (steps (clean bp)) = a ++ w :: b).
  { replace (a ++ w :: b ++ from) with ((a ++ w :: b) ++ from) in E by (rewrite <- app_assoc; reflexivity). apply app_inv_tail in E. congruence. }
  rewrite E2 in F. apply Forall_app in F. destruct F as [Fa Fw]. inversion Fw as [|? ? [A B] Fb]; subst.
  assert (Rp : resolve false t from (rev b) = At (b ++ from)).
  { apply resolve_user; [exact Fb| |congruence]. intros l (c & e & Ec & ->) _. apply Ds; [exists e; reflexivity|exists c; rewrite Ec, app_assoc; reflexivity]. }
  unfold thing_at in Td. destruct (node_at t (b ++ from)) as [[|? ? ? es]|] eqn:N; try discriminate. injection Td as -> -> ->.
  apply thing_node in Tn. assert (Rm : room t (w :: b ++ from)) by (cbn; eauto). set (t' := put t (w :: b ++ from) (Some fresh_dir)).
  assert (Rw : forall s, resolve false t from (rev b ++ w :: s) = NotExist).
  { intros s. rewrite resolve_app, Rp. cbn [resolve]. rewrite N. cbn [orb]. rewrite (walk_name _ w A B), Tn. reflexivity. }
  assert (Md : make_dir false t from (w :: b) = (true, t')).
  { cbn [make_dir]. replace (path_eqb w dotdot) with false by (symmetry; apply not_true_iff_false; rewrite path_eqb_true; exact B).
    rewrite Rp, N. cbn [orb andb]. assert (Tn' := Tn). cbn [node_at] in Tn'. rewrite N in Tn'. rewrite Tn'. reflexivity. }
  assert (St : Forall stepped (w :: b)) by (constructor; [exact A|]; eapply Forall_impl; [|exact Fb]; intros x [X _]; exact X).
  destruct (made _ _ _ _ _ St Md) as (w0 & d0 & p0 & E0 & R0 & _ & _ & R1 & N1 & _). injection E0 as <- <-. rewrite Rp in R0. injection R0 as <-.
  assert (Ms : make_dirs false t from (w :: b) = (true, t')).
  { cbn [make_dirs]. unfold is_dir. cbn [rev]. rewrite (Rw []). assert (M : make_dirs false t from b = (true, t)) by (destruct b; cbn [make_dirs]; unfold is_dir; rewrite Rp, N; reflexivity).
    rewrite M. cbn [negb]. rewrite Md. reflexivity. }
  assert (Ma : forall a, a <> [] -> make_dirs false t from (a ++ w :: b) = (false, t')).
  { induction a0 as [|v a0 IH]; intros Ne; [congruence|]. cbn [app make_dirs].
    assert (I : is_dir false t from (v :: a0 ++ w :: b) = None).
    { unfold is_dir. change (v :: a0 ++ w :: b) with ((v :: a0) ++ w :: b). rewrite rev_app_distr. cbn [rev]. rewrite <- !app_assoc. cbn [app]. rewrite Rw. reflexivity. }
    rewrite I. destruct a0 as [|u a0].
    - cbn [app]. rewrite Ms. cbn [negb].
      assert (K : make_dir false t' from (v :: w :: b) = (false, t')) by (cbn [make_dir]; destruct (path_eqb v dotdot); [reflexivity|]; rewrite R1, N1; reflexivity).
      assert (J : is_dir false t' from (v :: w :: b) = None) by (unfold is_dir; change (rev (v :: w :: b)) with (rev (w :: b) ++ [v]); rewrite resolve_snoc, R1, N1; reflexivity).
      rewrite K, J. reflexivity.
    - rewrite (IH ltac:(discriminate)). reflexivity. }
  unfold set_base_path. cbn [unix read_dir mkdir_all]. unfold os_read_dir. rewrite start_clean. fold from. rewrite E2.
  replace (steps (clean bp)) with (rev b ++ w :: rev a) by (rewrite <- (rev_involutive (steps _)), E2, rev_app_distr; cbn [rev]; rewrite <- app_assoc; reflexivity).
  rewrite Rw, (Ma a Na). eexists. exists t'. split; [reflexivity|]. split; [unfold t'; rewrite put_thing by exact Rm; reflexivity|]. intros l Nl. unfold t'.
  destruct (within_dec (w :: b ++ from) l) as [[s ->]|W]; [|apply put_outside; exact W].
  destruct s as [|v s _] using rev_ind; [elim Nl; reflexivity|]. unfold thing_at. rewrite (put_inside _ _ _ Rm), !node_at_app, Tn. reflexivity.
Qed.

(** ** Any process *)
(** Finding: SetBasePath of the current directory always panics and changes nothing. *)
Theorem C104_current_refuted root cwd g t bp : clean bp = dot -> exists g', set_base_path (unix root cwd) clean g t bp = (false, (g', t)).
Proof. apply dot_base. Qed.

(** ** A privileged process
    SetBasePath of a path of names returns exactly if there is no file on the way ... *)
Theorem C104_privileged cwd g t bp : ~ In dotdot (steps (clean bp)) -> leads cwd bp <> start cwd bp -> (exists r w x, thing_at t (start cwd bp) = Some (ADir r w x)) ->
  (fst (set_base_path (unix true cwd) clean g t bp) = true <-> forall l, within l (leads cwd bp) -> thing_at t l <> Some AFile) /\
  (fst (set_base_path (unix true cwd) clean g t bp) = false -> snd (snd (set_base_path (unix true cwd) clean g t bp)) = t).
Proof.
  intros Nd Ne D. destruct (names_named cwd bp Nd) as [F E]. rewrite <- (start_clean cwd bp) in Ne, D.
  assert (Nn : rev (steps (clean bp)) <> []) by (intros K; rewrite K in E; exact (Ne E)).
  assert (Ab : forall l, thing_at t l = Some AFile -> within l (leads cwd bp) -> chain (start cwd (clean bp)) (rev (steps (clean bp))) l).
  { intros l T [s Es]. rewrite E in Es. destruct (within_dec (start cwd (clean bp)) l) as [[b ->]|W].
    - exists s, b. split; [|reflexivity]. rewrite app_assoc in Es. apply app_inv_tail in Es. exact Es.
    - exfalso. (* then l is above the start, which is a directory *)
      assert (K : exists v q, start cwd (clean bp) = (v :: q) ++ l).
      { assert (G : forall (x y u v : place), x ++ y = u ++ v -> (exists b, v = b ++ y) \/ (exists v0 q, y = (v0 :: q) ++ v)).
        { clear. induction x as [|c x IH]; intros y u v H.
          - cbn in H. destruct u as [|c u]; [left; exists []; cbn in *; congruence|right; eauto].
          - destruct u as [|c' u]; [left; exists (c :: x); cbn in *; congruence|]. injection H as _ H. exact (IH y u v H). }
        destruct (G _ _ _ _ Es) as [[b ->]|K]; [elim W; exists b; reflexivity|exact K]. }
      destruct K as (v & q & K). destruct D as (r & w & x & D). unfold thing_at in D, T. rewrite K, node_at_app in D.
      destruct (node_at t l) as [[|? ? ? ?]|]; try discriminate.
      assert (Z : forall s, s <> [] -> node_at File s = None) by (clear; induction s as [|c s IH]; intros H; [congruence|]; cbn [node_at]; destruct s; [reflexivity|rewrite IH by discriminate; reflexivity]).
      rewrite (Z (v :: q)) in D by discriminate. discriminate. }
  destruct (Forall_Exists_dec (fun b => thing_at t (b ++ start cwd (clean bp)) <> Some AFile)
              ltac:(intros b; cbn beta; destruct (thing_at t (b ++ start cwd (clean bp))) as [[|]|]; [right; intros X; apply X; reflexivity|left; discriminate|left; discriminate])
              (map (fun i => skipn i (rev (steps (clean bp)))) (seq 0 (S (length (rev (steps (clean bp)))))))) as [G|G].
  - assert (NF : forall l, chain (start cwd (clean bp)) (rev (steps (clean bp))) l -> thing_at t l <> Some AFile).
    { intros l (a & b & Eab & ->). apply (proj1 (Forall_forall _ _) G b). apply in_map_iff. exists (length a). split.
      - rewrite Eab, skipn_app, skipn_all, Nat.sub_diag. reflexivity.
      - apply in_seq. rewrite Eab, app_length. lia. }
    destruct (names_base cwd g t bp _ eq_refl F Nn D NF) as (g' & t' & H & _). rewrite H. cbn [fst snd]. split; [|discriminate].
    split; [|reflexivity]. intros _ l W T. exact (NF l (Ab l T W) T).
  - apply Exists_exists in G. destruct G as (b & I & G). apply in_map_iff in I. destruct I as (i & <- & _).
    destruct (thing_at t (skipn i (rev (steps (clean bp))) ++ start cwd (clean bp))) as [[|]|] eqn:T; try (elim G; discriminate).
    destruct (file_base cwd g t bp _ (skipn i (rev (steps (clean bp))) ++ start cwd (clean bp)) eq_refl F) as [g' H]; [exists (firstn i (rev (steps (clean bp)))), (skipn i (rev (steps (clean bp)))); rewrite firstn_skipn; auto|exact T|].
    rewrite H. cbn [fst snd]. split; [|reflexivity]. split; [discriminate|]. intros K. exfalso. apply (K (skipn i (rev (steps (clean bp))) ++ start cwd (clean bp))); [|exact T].
    rewrite E. exists (firstn i (rev (steps (clean bp)))). rewrite app_assoc, firstn_skipn. reflexivity.
Qed.
(** ... then the directory exists and is empty, everything outside it is as before, and the only other new things are directories above it. *)
Theorem C104_privileged_result cwd g t bp g' t' : ~ In dotdot (steps (clean bp)) -> leads cwd bp <> start cwd bp -> (exists r w x, thing_at t (start cwd bp) = Some (ADir r w x)) ->
  set_base_path (unix true cwd) clean g t bp = (true, (g', t')) ->
  thing_at t' (leads cwd bp) = Some (ADir false false false) /\ (forall l, within (leads cwd bp) l -> l <> leads cwd bp -> thing_at t' l = None) /\
  (forall l x, ~ within (leads cwd bp) l -> thing_at t l = Some x -> thing_at t' l = Some x) /\
  (forall l, ~ within (leads cwd bp) l -> thing_at t l = None -> thing_at t' l <> None -> within l (leads cwd bp)).
Proof.
  intros Nd Ne D H. destruct (C104_privileged cwd g t bp Nd Ne D) as [[K _] _]. rewrite H in K. cbn [fst] in K. specialize (K eq_refl).
  destruct (names_named cwd bp Nd) as [F E]. rewrite <- (start_clean cwd bp) in Ne, D.
  assert (Nn : rev (steps (clean bp)) <> []) by (intros X; rewrite X in E; exact (Ne E)).
  destruct (names_base cwd g t bp _ eq_refl F Nn D) as (g2 & t2 & H2 & N & O & C).
  { intros l (a & b & Eab & ->). apply K. exists a. rewrite E, Eab, app_assoc. reflexivity. }
  rewrite H in H2. injection H2 as <- <-. rewrite <- E in N, O, C. split; [unfold thing_at; rewrite N; reflexivity|]. split.
  - intros l [s ->] Nl. apply thing_node. rewrite node_at_app, N. destruct s as [|v s]; [elim Nl; reflexivity|]. clear. induction s as [|u s IH] in v |- *; [reflexivity|].
    cbn [node_at] in IH |- *. specialize (IH u). cbn [node_at] in IH. destruct (node_at fresh_dir s) as [[|]|]; try reflexivity. rewrite IH. reflexivity.
  - split; [exact O|]. intros l Wl Tl Kl. destruct (C l Wl Tl Kl) as (a & b & Eab & ->). exists a. rewrite E, Eab, app_assoc. reflexivity.
Qed.
(** Finding: a path of double dots deletes everything in the directory it leads to, and panics. *)
Theorem C104_up_refuted cwd g t bp k r w x es : steps (clean bp) = repeat dotdot (S k) -> node_at t (start cwd bp) = Some (Dir r w x es) ->
  exists g' t', set_base_path (unix true cwd) clean g t bp = (false, (g', t')) /\
    (forall l, within (leads cwd bp) l -> l <> leads cwd bp -> thing_at t' l = None) /\ (forall l, ~ within (leads cwd bp) l -> thing_at t' l = thing_at t l).
Proof.
  intros Es N. rewrite <- start_clean in N. pose proof (leads_clean cwd bp) as L. rewrite Es in L. unfold set_base_path. cbn [unix read_dir remove_all]. unfold os_read_dir.
  destruct (resolve_up t (S k) _ _ _ _ _ N) as [Ra (r2 & w2 & x2 & es2 & Na)]. rewrite Es, Ra, Na. cbn [orb].
  pose proof (resolve_walk _ _ _ _ _ Ra) as Lk. rewrite L in Lk. rewrite Lk in *. clear Ra.
  assert (Er : forall j, rev (repeat dotdot j) = repeat dotdot j).
  { induction j as [|j IH]; [reflexivity|]. cbn [repeat rev]. rewrite IH. clear. induction j as [|j IH]; [reflexivity|]. cbn [repeat app]. rewrite IH. reflexivity. }
  rewrite Er. cbn [repeat remove_dirs].
  rewrite Er. destruct (resolve_up t k _ _ _ _ _ N) as [Rb (r3 & w3 & x3 & es3 & Nb)]. rewrite Rb, Nb. cbn [orb negb]. rewrite path_eqb_refl.
  assert (Tl : tl (skipn k (start cwd (clean bp))) = leads cwd bp) by (rewrite skipn_tl; exact Lk). rewrite Tl, Na. cbn [option_map]. rewrite empty_out_root.
  eexists. eexists. split; [reflexivity|]. pose proof (room_of _ _ _ Na) as Rm. split.
  - intros l [s ->] Nl. apply thing_node. rewrite (put_inside _ _ _ Rm). destruct s as [|v s]; [elim Nl; reflexivity|]. clear. induction s as [|u s IH] in v |- *; [reflexivity|].
    cbn [node_at] in IH |- *. specialize (IH u). cbn [node_at] in IH. destruct (node_at (Dir r2 w2 x2 []) s) as [[|]|]; try reflexivity. rewrite IH. reflexivity.
  - intros l W. apply put_outside. exact W.
Qed.

(** ** Not vacuous: / may not be written, /u may; an unprivileged process in /u, then a privileged one. *)
Definition some_tree : node := Dir true false true [([117], Dir true true true [([102], File)])].
Definition gen : list Z := [103].              (* g *)
Definition deep : list Z := [97; 47; 98].      (* a/b *)
Definition user_home : place := [[117]].
Definition base_of (root : bool) (t : node) (bp : list Z) : bool * node :=
  let r := set_base_path (unix root user_home) clean new_generator t bp in (fst r, snd (snd r)).
Example C104_nonvacuous :
  (* the first run makes g, the second panics *)
  base_of false some_tree gen = (true, Dir true false true [([117], Dir true true true [(gen, fresh_dir); ([102], File)])]) /\
  base_of false (snd (base_of false some_tree gen)) gen = (false, snd (base_of false some_tree gen)) /\
  (* a/b: panics, and a is left *)
  base_of false some_tree deep = (false, Dir true false true [([117], Dir true true true [([97], fresh_dir); ([102], File)])]) /\
  (* a file in the way *)
  base_of true some_tree [102; 47; 98] = (false, some_tree) /\
  (* the privileged process: both work, twice *)
  fst (base_of true some_tree deep) = true /\ base_of true (snd (base_of true some_tree deep)) deep = base_of true some_tree deep /\
  (* double dots *)
  base_of true some_tree dotdot = (false, Dir true false true []) /\
  (* Src outside the base path: / cannot be written *)
  create (unix false user_home) some_tree (slash :: gen) = (false, some_tree) /\ fst (create (unix true user_home) some_tree (slash :: gen)) = true.
Proof. repeat split; vm_compute; reflexivity. Qed.
(** a base path that is there: u/g holds a file and an unusable directory with a file in it; SetBasePath panics, and the first file is
    gone.  Without the unusable directory it is replaced. *)
Definition old_run (inner : node) : node := Dir true false true [([117], Dir true true true [(gen, Dir true true true [([120], File); ([121], inner)])])].
Example C104_replace_nonvacuous :
  proper (old_run (Dir false false false [([122], File)])) /\
  base_of false (old_run (Dir false false false [([122], File)])) gen =
    (false, Dir true false true [([117], Dir true true true [(gen, Dir true true true [([121], Dir false false false [([122], File)])])])]) /\
  base_of false (old_run (Dir false false false [])) gen = (true, Dir true false true [([117], Dir true true true [(gen, fresh_dir)])]).
Proof.
  split; [|split; vm_compute; reflexivity]. intros l r w x es.
  assert (H : forall t, (forall r w x es, t = Dir r w x es -> NoDup (map fst es)) -> (forall v n, match t with Dir _ _ _ es => entry v es = Some n | File => False end -> proper n) -> proper t).
  { intros t H1 H2 l' r' w' x' es' E. destruct l' as [|v l' _] using rev_ind; [injection E as E; exact (H1 _ _ _ _ E)|]. rewrite node_at_app in E. cbn [node_at] in E.
    destruct t as [|r0 w0 x0 es0]; [discriminate|]. destruct (entry v es0) as [n|] eqn:Q; [|discriminate]. exact (H2 v n Q l' r' w' x' es' E). }
  assert (PF : proper File) by (apply H; [discriminate|intros v n []]).
  assert (S1 : forall r w x nm n, proper n -> proper (Dir r w x [(nm, n)])).
  { intros r0 w0 x0 nm n P. apply H; [intros ? ? ? ? E; injection E as _ _ _ <-; repeat constructor; intros []|]. intros v m. rewrite entry_cons. destruct (path_eqb v nm); [intros E; injection E as <-; exact P|discriminate]. }
  revert l r w x es. change (proper (old_run (Dir false false false [([122], File)]))). unfold old_run. apply S1. apply S1. apply H.
  - intros ? ? ? ? E. injection E as _ _ _ <-. repeat constructor; cbn; intuition discriminate.
  - intros v m. rewrite !entry_cons. destruct (path_eqb v [120]); [intros E; injection E as <-; exact PF|]. destruct (path_eqb v [121]); [intros E; injection E as <-; apply S1; exact PF|discriminate].
Qed.
(** Finding: Src, which works in the root directory (C87), panics for a process that may not write there, unless the file exists. *)
Theorem C104_src_refuted cwd t cs n r x : Forall (fun c => c <> 47) n -> name n ->
  let w := snd (do_calls (unix false cwd) clean cs (new_generator, t)) in
  thing_at (snd w) [] = Some (ADir r false x) -> thing_at (snd w) [n] = None -> src (unix false cwd) (fst w) (snd w) n = (false, w).
Proof.
  intros Ns (N1 & N2 & N3) w T Tn.
  assert (Q : forall cs w, current_dir (fst w) = [] -> current_dir (fst (snd (do_calls (unix false cwd) clean cs w))) = []).
  { clear. induction cs as [|c cs IH]; intros w Hw; [exact Hw|]. cbn [do_calls].
    assert (D1 : current_dir (fst (snd (do_call (unix false cwd) clean c w))) = []).
    { destruct c; cbn [do_call].
      - unfold set_base_path. destruct (base_path (fst w)); destruct (read_dir (unix false cwd) (snd w) (clean bp));
          repeat match goal with |- context [let '(_, _) := ?e in _] => destruct e as [[] ?]; cbn [negb] end; exact Hw.
      - unfold dir. destruct (base_path (fst w)); [|exact Hw].
        destruct (match dirs (fst w) with Some d => existsb (path_eqb (clean (p ++ slash :: name))) d | None => false end); [exact Hw|].
        destruct (mkdir_all _ _ _) as [[] ?]; cbn [negb]; [|exact Hw]. destruct (dirs (fst w)); exact Hw.
      - unfold src. destruct (existsb _ _); [exact Hw|]. destruct (create _ _ _) as [[] ?]; exact Hw. }
    destruct (do_call (unix false cwd) clean c w) as [ok w1]. specialize (IH w1 D1). destruct (do_calls (unix false cwd) clean cs w1). exact IH. }
  specialize (Q cs (new_generator, t) eq_refl). fold w in Q. unfold src. rewrite Q. destruct w as [g2 t2]. cbn [fst snd] in *.
  destruct (existsb _ (srcs g2)); [reflexivity|]. cbn [app unix create]. unfold create_file.
  assert (P : parts (slash :: n) = [[]; n]) by (unfold slash; rewrite parts_rooted, (parts_one n Ns); reflexivity).
  rewrite P. cbn [last]. destruct (list_eq_dec Z.eq_dec n []); [congruence|]. destruct (list_eq_dec Z.eq_dec n dot); [congruence|]. destruct (list_eq_dec Z.eq_dec n dotdot); [congruence|].
  assert (St : steps (slash :: n) = [n]).
  { unfold steps. rewrite P. cbn [filter]. destruct (list_eq_dec Z.eq_dec n []); [congruence|]. destruct (list_eq_dec Z.eq_dec n dot); [congruence|]. reflexivity. }
  rewrite St. cbn [removelast resolve start rooted]. change (start cwd (slash :: n)) with (@nil (list Z)). cbn [node_at]. unfold thing_at in T, Tn. cbn [node_at] in T, Tn.
  destruct t2 as [|pr pw px es]; [discriminate|]. injection T as -> -> ->. destruct (entry n es) as [[|]|]; try discriminate. destruct (negb (false || x)); reflexivity.
Qed.
