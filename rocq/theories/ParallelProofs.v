(** Proofs about Parallel. *)
From Verif Require Import Base Slice Parallel ParallelSpec ParallelFloatProofs.
From Coq Require Import ZifyNat.
Ltac Zify.zify_post_hook ::= Z.div_mod_to_equations.
Open Scope nat_scope.

(** ** Ranges *)
Lemma chain_app a r1 b r2 c : chain a r1 b -> chain b r2 c -> chain a (r1 ++ r2) c.
Proof. induction 1; simpl; auto. intros. constructor; auto. Qed.

Lemma chain_le a r c : chain a r c -> a <= c.
Proof. induction 1; lia. Qed.

Lemma bucket_loop_chain b : 0 < b -> forall i start, chain start (bucket_loop i start b) (start + i * b).
Proof.
  intros Hb. induction i as [|i IH]; intros start; simpl; [rewrite Nat.add_0_r; constructor|].
  constructor; [lia|]. replace (start + (b + i * b)) with (start + b + i * b) by lia. apply IH.
Qed.

Lemma bucket_loop_sizes b i : forall start, Forall (fun r => size r = b) (bucket_loop i start b).
Proof. induction i as [|i IH]; intros start; simpl; constructor; auto. unfold size; simpl; lia. Qed.

Lemma bucket_loop_length b i : forall start, length (bucket_loop i start b) = i.
Proof. induction i as [|i IH]; intros start; simpl; auto. Qed.

Lemma bucket_ranges_ok n b : 0 < b ->
  exists full rest, bucket_ranges n b = Done (full ++ rest) /\ chain 0 (full ++ rest) n /\
    Forall (fun r => size r = b) full /\ length full = n / b /\
    match rest with [] => n mod b = 0 | [r] => size r = n mod b /\ 0 < n mod b | _ => False end.
Proof.
  intros Hb. unfold bucket_ranges. destruct (Nat.eqb_spec b 0); [lia|].
  pose proof (Nat.div_mod n b ltac:(lia)) as D. pose proof (Nat.mod_upper_bound n b ltac:(lia)) as M.
  set (q := n / b) in *. set (r := n mod b) in *.
  exists (bucket_loop q 0 b), (if 0 <? r then [(n - r, n)] else []).
  split; [reflexivity|]. split; [|split; [apply bucket_loop_sizes|split; [apply bucket_loop_length|]]].
  - apply chain_app with (b := q * b); [apply (bucket_loop_chain b Hb q 0)|].
    destruct (Nat.ltb_spec 0 r).
    + replace (q * b) with (n - r) by lia. constructor; [lia|constructor].
    + replace n with (q * b) by lia. constructor.
  - destruct (Nat.ltb_spec 0 r); [|lia]. unfold size; simpl. lia.
Qed.

Lemma thread_loop_ok n b : 0 < b -> forall j start rem fuel,
  start + j * b + rem = n -> rem <= j -> j < fuel ->
  exists rs, thread_loop fuel start n b rem = Done rs /\ chain start rs n /\ length rs = j /\
    exists pre post, rs = pre ++ post /\ length pre = rem /\
      Forall (fun r => size r = b + 1) pre /\ Forall (fun r => size r = b) post.
Proof.
  intros Hb. induction j as [|j IH]; intros start rem fuel E R F; (destruct fuel as [|fuel]; [lia|]); cbn [thread_loop].
  - destruct (Nat.ltb_spec start n); [lia|]. exists []. split; auto. replace n with start by lia.
    split; [constructor|]. split; auto. exists [], []. simpl. repeat split; auto. lia.
  - destruct (Nat.ltb_spec start n); [|simpl in E; lia].
    destruct (Nat.ltb_spec 0 rem).
    + destruct (IH (start + b + 1) (rem - 1) fuel) as (rs & -> & C & L & pre & post & -> & LP & F1 & F2); [simpl in E; lia|lia|lia|].
      simpl. eexists. split; [reflexivity|]. split; [constructor; [lia|exact C]|]. split; [simpl; lia|].
      exists ((start, start + b + 1) :: pre), post. split; [reflexivity|]. split; [simpl; lia|].
      split; auto. constructor; auto. unfold size; simpl; lia.
    + destruct (IH (start + b) rem fuel) as (rs & -> & C & L & pre & post & -> & LP & F1 & F2); [simpl in E; lia|lia|lia|].
      simpl. eexists. split; [reflexivity|]. split; [constructor; [lia|exact C]|]. split; [simpl; lia|].
      destruct pre; [|simpl in LP; lia]. exists [], ((start, start + b) :: post). split; [reflexivity|]. split; [simpl in *; lia|].
      split; auto. constructor; auto. unfold size; simpl; lia.
Qed.

Lemma clamp_bounds n z : 1 <= n -> (Z.of_nat n < 2 ^ 53)%Z -> (- 2 ^ 63 <= z < 2 ^ 63)%Z -> 1 <= clamp n z <= n.
Proof. intros. rewrite clamp_exact by auto. split; [|apply Nat.le_min_l]. apply Nat.min_glb; auto. lia. Qed.

Lemma generate_ok n info : 1 <= n -> pinfo_ok n info ->
  exists rs, generate_ranges n info = Done rs /\ chain 0 rs n.
Proof.
  intros Hn (Hb & Hi). destruct info as [|z|z]; cbn [generate_ranges].
  - destruct (bucket_ranges_ok n (bucket_size n) (bucket_size_pos n ltac:(lia))) as (f & r & E & C & _). eauto.
  - pose proof (clamp_bounds n z Hn Hb Hi) as B. destruct (Nat.eqb_spec (clamp n z) 0); [lia|].
    set (t := clamp n z) in *. pose proof (Nat.div_mod n t ltac:(lia)). pose proof (Nat.mod_upper_bound n t ltac:(lia)).
    assert (0 < n / t) by (apply Nat.div_str_pos; lia).
    destruct (thread_loop_ok n (n / t) ltac:(auto) t 0 (n mod t) (S n)) as (rs & E & C & _); try lia. eauto.
  - pose proof (clamp_bounds n z Hn Hb Hi) as B. destruct (bucket_ranges_ok n (clamp n z) ltac:(lia)) as (f & r & E & C & _). eauto.
Qed.

(** ** Segments *)
Lemma seg_length {A} (l : list A) lo hi : lo <= hi -> hi <= length l -> length (seg l (lo, hi)) = hi - lo.
Proof. intros. unfold seg; simpl. rewrite firstn_length, skipn_length. lia. Qed.

Lemma nth_skipn {A} (l : list A) a i : nth_error (skipn a l) i = nth_error l (a + i).
Proof. revert l. induction a as [|a IH]; intros [|x l]; simpl; auto. destruct i; reflexivity. Qed.

Lemma nth_firstn {A} (l : list A) n i : nth_error (firstn n l) i = if i <? n then nth_error l i else None.
Proof.
  revert n i. induction l as [|x l IH]; intros [|n] [|i]; simpl; auto.
  - destruct (S i <? S n); reflexivity.
  - rewrite IH. reflexivity.
Qed.

Lemma seg_nth {A} (l : list A) lo hi i : nth_error (seg l (lo, hi)) i = if i <? hi - lo then nth_error l (lo + i) else None.
Proof. unfold seg; simpl. rewrite nth_firstn, nth_skipn. reflexivity. Qed.

Lemma list_ext {A} (l1 l2 : list A) : (forall i, nth_error l1 i = nth_error l2 i) -> l1 = l2.
Proof.
  revert l2. induction l1 as [|x l1 IH]; intros [|y l2] H; auto.
  - specialize (H 0). discriminate.
  - specialize (H 0). discriminate.
  - f_equal; [specialize (H 0); simpl in H; congruence|]. apply IH. intros i. apply (H (S i)).
Qed.

Lemma set_nth_seg {A} (l l' : list A) lo hi i v : i < hi - lo -> hi <= length l ->
  set_nth l (lo + i) v = Some l' -> set_nth (seg l (lo, hi)) i v = Some (seg l' (lo, hi)).
Proof.
  intros Hi Hl E. destruct (set_nth_some (seg l (lo, hi)) i v) as [s Hs].
  { rewrite seg_length; lia. }
  rewrite Hs. f_equal. apply list_ext. intros j. rewrite (set_nth_get _ _ _ _ j Hs), !seg_nth.
  destruct (Nat.eqb_spec j i); subst.
  - destruct (Nat.ltb_spec i (hi - lo)); [|lia]. rewrite (set_nth_get _ _ _ _ (lo + i) E), Nat.eqb_refl. reflexivity.
  - destruct (Nat.ltb_spec j (hi - lo)); auto. rewrite (set_nth_get _ _ _ _ (lo + j) E).
    destruct (Nat.eqb_spec (lo + j) (lo + i)); [lia|reflexivity].
Qed.

Lemma seg_other {A} (l l' : list A) k v lo hi : set_nth l k v = Some l' -> k < lo \/ hi <= k ->
  seg l' (lo, hi) = seg l (lo, hi).
Proof.
  intros E D. apply list_ext. intros j. rewrite !seg_nth. destruct (Nat.ltb_spec j (hi - lo)); auto.
  rewrite (set_nth_get _ _ _ _ (lo + j) E). destruct (Nat.eqb_spec (lo + j) k); [lia|reflexivity].
Qed.

Lemma chain_concat {A} (l : list A) a rs c : chain a rs c -> c <= length l ->
  concat (map (seg l) rs) = seg l (a, c).
Proof.
  induction 1 as [n|a b r c Hab C IH]; intros Hc; simpl.
  - unfold seg; simpl. rewrite Nat.sub_diag. reflexivity.
  - rewrite IH by auto. apply chain_le in C. apply list_ext. intros i.
    destruct (Nat.lt_ge_cases i (b - a)).
    + rewrite nth_error_app1 by (rewrite seg_length; lia). rewrite !seg_nth.
      destruct (Nat.ltb_spec i (b - a)), (Nat.ltb_spec i (c - a)); try lia; reflexivity.
    + rewrite nth_error_app2 by (rewrite seg_length; lia). rewrite seg_length by lia. rewrite !seg_nth.
      destruct (Nat.ltb_spec (i - (b - a)) (c - b)), (Nat.ltb_spec i (c - a)); try lia; auto. f_equal. lia.
Qed.

Lemma seg_all {A} (l : list A) : seg l (0, length l) = l.
Proof. unfold seg; simpl. rewrite Nat.sub_0_r. apply firstn_all. Qed.

Lemma chain_disjoint a rs c : chain a rs c -> forall t t' r r', nth_error rs t = Some r -> nth_error rs t' = Some r' -> t <> t' ->
  a <= fst r /\ fst r < snd r /\ snd r <= c /\ (snd r <= fst r' \/ snd r' <= fst r).
Proof.
  induction 1 as [n|a b rs c Hab C IH]; intros t t' r r' H1 H2 N; [destruct t; discriminate|].
  assert (Hc : forall u q, nth_error rs u = Some q -> b <= fst q /\ fst q < snd q /\ snd q <= c).
  { clear -C. induction C as [n|a b rs c Hab C IH]; intros u q Hq; [destruct u; discriminate|].
    destruct u; simpl in Hq; [inversion Hq; subst; simpl; apply chain_le in C; lia|]. specialize (IH u q Hq). lia. }
  apply chain_le in C. destruct t as [|t], t' as [|t']; simpl in *; try congruence.
  - inversion H1; subst; simpl. specialize (Hc _ _ H2). lia.
  - inversion H2; subst; simpl. specialize (Hc _ _ H1). lia.
  - destruct (IH t t' r r' H1 H2 ltac:(congruence)) as (A & B & D & E). lia.
Qed.

Lemma chain_in a rs c : chain a rs c -> forall t r, nth_error rs t = Some r -> a <= fst r /\ fst r < snd r /\ snd r <= c.
Proof.
  induction 1 as [n|a b rs c Hab C IH]; intros u q Hq; [destruct u; discriminate|].
  destruct u; simpl in Hq; [inversion Hq; subst; simpl; apply chain_le in C; lia|]. specialize (IH u q Hq). lia.
Qed.

Lemma chain_cover a rs c : chain a rs c -> forall i, a <= i < c ->
  exists t r, nth_error rs t = Some r /\ fst r <= i < snd r.
Proof.
  induction 1 as [n|a b rs c Hab C IH]; intros i Hi; [lia|].
  destruct (Nat.lt_ge_cases i b).
  - exists 0, (a, b). simpl. split; auto. lia.
  - destruct (IH i ltac:(lia)) as (t & r & E & R). exists (S t), r. auto.
Qed.

Lemma iter_S {A} (f : A -> A) k x : Nat.iter (S k) f x = Nat.iter k f (f x).
Proof. induction k as [|k IH]; [reflexivity|]. cbn in *. rewrite IH. reflexivity. Qed.
Lemma iter_add {A} (f : A -> A) j k x : Nat.iter (j + k) f x = Nat.iter j f (Nat.iter k f x).
Proof. induction j; simpl; congruence. Qed.

Lemma skipn_skipn {A} (l : list A) a b : skipn a (skipn b l) = skipn (a + b) l.
Proof. apply list_ext. intros i. rewrite !nth_skipn. f_equal. lia. Qed.

(** ** One worker *)
Section Workers.
  Context {T U Q : Type} `{ZU : Zero U}.
  Variable act : Q -> action T U Q.
  Variable alias : option (U -> T).

  Definition mseg (m : list T * list U) (r : nat * nat) : list T * list U := (seg (fst m) r, seg (snd m) r).

  (** writes stay in place *)
  Lemma mwrite_frame m i u m' : mwrite alias m i u = Some m' ->
    length (fst m') = length (fst m) /\ length (snd m') = length (snd m) /\
    (forall lo hi, i < lo \/ hi <= i -> mseg m' (lo, hi) = mseg m (lo, hi)) /\
    (forall lo hi j, i = lo + j -> j < hi - lo -> hi <= length (fst m) -> hi <= length (snd m) ->
       mwrite alias (mseg m (lo, hi)) j u = Some (mseg m' (lo, hi))).
  Proof.
    unfold mwrite. destruct (set_nth (snd m) i u) as [out'|] eqn:E1; [|discriminate].
    destruct alias as [w|].
    - destruct (set_nth (fst m) i (w u)) as [in'|] eqn:E2; [|discriminate]. intros H; inversion H; subst; simpl.
      split; [eapply set_nth_length; eauto|]. split; [eapply set_nth_length; eauto|]. split.
      + intros. unfold mseg; simpl. f_equal; eapply seg_other; eauto.
      + intros lo hi j -> Hj H1 H2. rewrite (set_nth_seg _ _ lo hi j u Hj H2 E1), (set_nth_seg _ _ lo hi j (w u) Hj H1 E2). reflexivity.
    - intros H; inversion H; subst; simpl. split; [reflexivity|]. split; [eapply set_nth_length; eauto|]. split.
      + intros. unfold mseg; simpl. f_equal; eapply seg_other; eauto.
      + intros lo hi j -> Hj H1 H2. rewrite (set_nth_seg _ _ lo hi j u Hj H2 E1). reflexivity.
  Qed.

  Lemma mwrite_some m i u : i < length (fst m) -> i < length (snd m) -> exists m', mwrite alias m i u = Some m'.
  Proof.
    intros H1 H2. unfold mwrite. destruct (set_nth_some (snd m) i u H2) as [o ->].
    destruct alias as [w|]; [|eauto]. destruct (set_nth_some (fst m) i (w u) H1) as [o' ->]. eauto.
  Qed.

  (** a step in the whole memory is the same step in the worker's own part of it, and touches nothing else *)
  Lemma wstep_frame lo hi w m : lo <= hi -> hi <= length (fst m) -> hi <= length (snd m) ->
    wstep act alias 0 (hi - lo) w (mseg m (lo, hi)) =
      (fst (wstep act alias lo hi w m), mseg (snd (wstep act alias lo hi w m)) (lo, hi)) /\
    length (fst (snd (wstep act alias lo hi w m))) = length (fst m) /\
    length (snd (snd (wstep act alias lo hi w m))) = length (snd m) /\
    (forall lo' hi', hi' <= lo \/ hi <= lo' -> mseg (snd (wstep act alias lo hi w m)) (lo', hi') = mseg m (lo', hi')).
  Proof.
    intros Hlh H1 H2.
    assert (WR : forall i u (wok wno : wstate Q), i < hi - lo ->
      let r := match mwrite alias m (lo + i) u with Some m' => (wok, m') | None => (wno, m) end in
      match mwrite alias (mseg m (lo, hi)) (0 + i) u with Some m' => (wok, m') | None => (wno, mseg m (lo, hi)) end
        = (fst r, mseg (snd r) (lo, hi)) /\
      length (fst (snd r)) = length (fst m) /\ length (snd (snd r)) = length (snd m) /\
      (forall lo' hi', hi' <= lo \/ hi <= lo' -> mseg (snd r) (lo', hi') = mseg m (lo', hi'))).
    { intros i u wok wno Hi. destruct (mwrite_some m (lo + i) u ltac:(lia) ltac:(lia)) as [m' E]. rewrite E.
      destruct (mwrite_frame _ _ _ _ E) as (L1 & L2 & O & I). simpl. rewrite (I lo hi i eq_refl Hi H1 H2). simpl.
      repeat split; auto. intros lo' hi' D. apply O. lia. }
    destruct w as [q rd wr|e i|e|]; cbn [wstep].
    - rewrite Nat.sub_0_r. destruct (act q) as [k|u q'|e|] eqn:A; [| | |simpl; auto].
      + destruct (Nat.ltb_spec rd (hi - lo)); [|simpl; auto].
        unfold mseg at 1. cbn [fst]. rewrite seg_nth. destruct (Nat.ltb_spec (0 + rd) (hi - lo)); [|lia].
        replace (lo + (0 + rd)) with (lo + rd) by lia.
        destruct (nth_error (fst m) (lo + rd)); simpl; auto.
      + destruct (Nat.ltb_spec wr (hi - lo)); [|simpl; auto]. apply WR; auto.
      + destruct e; simpl; auto.
    - rewrite Nat.sub_0_r. destruct (Nat.ltb_spec i (hi - lo)); [|simpl; auto]. apply WR; auto.
    - simpl; auto.
    - simpl; auto.
  Qed.

  (** ** All workers *)
  Variable ranges : list (nat * nat).
  Variable n : nat.
  Hypothesis CH : chain 0 ranges n.

  (** worker [t]'s own world *)
  Definition lstep (len : nat) (x : wstate Q * (list T * list U)) : wstate Q * (list T * list U) :=
    wstep act alias 0 len (fst x) (snd x).

  Definition local (g : gstate (T := T) (U := U) (Q := Q)) (t : nat) : option (wstate Q * (list T * list U)) :=
    match nth_error ranges t, nth_error (fst g) t with
    | Some r, Some w => Some (w, mseg (snd g) r)
    | _, _ => None
    end.

  Definition wf (g : gstate (T := T) (U := U) (Q := Q)) : Prop :=
    length (fst g) = length ranges /\ length (fst (snd g)) = n /\ length (snd (snd g)) = n.

  Lemma gstep_local g t : wf g -> wf (gstep act alias ranges t g) /\
    forall t', local (gstep act alias ranges t g) t' =
      match local g t' with
      | Some x => Some (if t' =? t then match nth_error ranges t with Some r => lstep (size r) x | None => x end else x)
      | None => None
      end.
  Proof.
    intros (W1 & W2 & W3). unfold gstep. destruct g as [ws m]; simpl in *.
    destruct (nth_error ranges t) as [[lo hi]|] eqn:R.
    2: { split; [split; auto|]. intros t'. unfold local. simpl. destruct (nth_error ranges t'), (nth_error ws t'); auto. destruct (_ =? _); auto. }
    destruct (nth_error ws t) as [w|] eqn:W.
    2: { exfalso. apply nth_error_None in W. assert (t < length ranges) by (apply nth_error_Some; congruence). lia. }
    pose proof (chain_in _ _ _ CH t _ R) as (B1 & B2 & B3). simpl in *.
    destruct (wstep_frame lo hi w m ltac:(lia) ltac:(lia) ltac:(lia)) as (F1 & F2 & F3 & F4).
    destruct (wstep act alias lo hi w m) as [w' m'] eqn:St. simpl in *.
    destruct (set_nth_some ws t w') as [ws' Hw]. { apply nth_error_Some; congruence. }
    rewrite Hw. split; [split; [|split]; simpl; try lia; rewrite (set_nth_length _ _ _ _ Hw); auto|].
    intros t'. unfold local. simpl. rewrite (set_nth_get _ _ _ _ t' Hw).
    destruct (Nat.eqb_spec t' t); subst.
    - rewrite R, W. unfold lstep, size. simpl. rewrite F1. reflexivity.
    - destruct (nth_error ranges t') as [[lo' hi']|] eqn:R'; auto. destruct (nth_error ws t') as [w0|] eqn:W'; auto.
      f_equal. f_equal. apply F4. destruct (chain_disjoint _ _ _ CH t' t _ _ R' R n0) as (_ & _ & _ & D). simpl in D. lia.
  Qed.

  Lemma grun_local sched : forall g, wf g -> wf (grun act alias ranges sched g) /\
    forall t r x, nth_error ranges t = Some r -> local g t = Some x ->
      local (grun act alias ranges sched g) t = Some (Nat.iter (count_occ Nat.eq_dec sched t) (lstep (size r)) x).
  Proof.
    unfold grun. induction sched as [|u sched IH]; intros g W; cbn [fold_left count_occ]; [auto|].
    destruct (gstep_local g u W) as [W' L]. destruct (IH _ W') as [W'' L']. split; auto.
    intros t r x R X. destruct (Nat.eq_dec u t) as [->|N].
    - rewrite (L' t r (lstep (size r) x) R). { f_equal. symmetry. apply iter_S. }
      rewrite L, X, Nat.eqb_refl, R. reflexivity.
    - rewrite (L' t r x R); auto. rewrite L, X. destruct (Nat.eqb_spec t u); [congruence|reflexivity].
  Qed.

  (** ** A worker alone *)

  Lemma done_stays len e m k : Nat.iter k (lstep len) (WDone e, m) = (WDone e, m).
  Proof. induction k; auto. rewrite iter_S. simpl. auto. Qed.
  Lemma crash_stays len m k : Nat.iter k (lstep len) (WCrash, m) = (WCrash, m).
  Proof. induction k; auto. rewrite iter_S. simpl. auto. Qed.

  Lemma write_at inp (pre rest : list U) x u len : length inp = len -> length (pre ++ x :: rest) = len ->
    exists inp', mwrite alias (inp, pre ++ x :: rest) (length pre) u = Some (inp', pre ++ u :: rest) /\
      length inp' = len /\ skipn (length pre + 1) inp' = skipn (length pre + 1) inp.
  Proof.
    intros L1 L2. unfold mwrite. simpl. rewrite set_nth_app. destruct alias as [w|]; [|eauto].
    destruct (set_nth_some inp (length pre) (w u)) as [inp' E].
    { rewrite L1, <- L2, app_length. simpl. lia. }
    rewrite E. exists inp'. split; auto. split; [rewrite <- L1; eapply set_nth_length; eauto|].
    apply list_ext. intros i. rewrite !nth_skipn, (set_nth_get _ _ _ _ _ E).
    destruct (Nat.eqb_spec (length pre + 1 + i) (length pre)); [lia|reflexivity].
  Qed.

  Lemma skipn_more {A} (l1 l2 : list A) a b : a <= b -> skipn a l1 = skipn a l2 -> skipn b l1 = skipn b l2.
  Proof.
    intros H E. replace b with ((b - a) + a) by lia. rewrite <- !skipn_skipn. rewrite E. reflexivity.
  Qed.

  Lemma zero_run e len : forall rest inp pre, length inp = len -> length (pre ++ rest) = len ->
    exists inp', Nat.iter (length rest + 1) (lstep len) (WZero e (length pre), (inp, pre ++ rest)) =
      (WDone (Some e), (inp', pre ++ repeat zv (length rest))).
  Proof.
    induction rest as [|x rest IH]; intros inp pre L1 L2; cbn [length Nat.add].
    - rewrite iter_S. unfold lstep at 2. cbn [wstep fst snd]. rewrite Nat.sub_0_r.
      destruct (Nat.ltb_spec (length pre) len); [rewrite app_length in L2; simpl in L2; lia|].
      simpl. rewrite app_nil_r. eauto.
    - rewrite iter_S. unfold lstep at 2. cbn [wstep fst snd]. rewrite Nat.sub_0_r.
      destruct (Nat.ltb_spec (length pre) len); [|rewrite app_length in L2; simpl in L2; lia].
      cbn [Nat.add]. destruct (write_at inp pre rest x zv len L1 L2) as (inp' & -> & L' & _).
      destruct (IH inp' (pre ++ [zv])) as [inp2 E]; auto.
      { rewrite !app_length in *. simpl in *. lia. }
      exists inp2. rewrite <- !app_assoc in E. cbn [app] in E. rewrite app_length in E. cbn [length] in E.
      cbn [repeat]. exact E.
  Qed.

  Lemma run_alone len d q l w e : runs act d q l w e -> forall inp pre rest,
    length inp = len -> length (pre ++ rest) = len -> skipn (length pre + d) inp = l -> length pre + d <= len ->
    exists k inp', Nat.iter k (lstep len) (WRun q (length pre + d) (length pre), (inp, pre ++ rest)) =
      (WDone (err_of e), (inp', match e with EOI => pre ++ w ++ skipn (length w) rest | _ => repeat zv len end)).
  Proof.
    induction 1 as [d q k x l w e A R IH|d q k w e A R IH|d q u q' l w e A R IH|d q l e A]; intros inp pre rest L1 L2 Sk Le.
    - assert (Hr : length pre + d < len). { rewrite <- L1. apply nth_error_Some. rewrite <- (Nat.add_0_r (_ + _)), <- nth_skipn, Sk. discriminate. }
      assert (Hx : nth_error inp (0 + (length pre + d)) = Some x).
      { rewrite <- (Nat.add_0_r (length pre + d)). rewrite Nat.add_assoc. rewrite <- nth_skipn. simpl. rewrite Sk. reflexivity. }
      destruct (IH inp pre rest L1 L2) as (j & inp' & E).
      { replace (length pre + S d) with (1 + (length pre + d)) by lia. rewrite <- skipn_skipn, Sk. reflexivity. }
      { lia. }
      exists (S j), inp'. rewrite iter_S. unfold lstep at 2. cbn [wstep fst snd]. rewrite A, Nat.sub_0_r, Hx.
      destruct (Nat.ltb_spec (length pre + d) len); [|lia].
      replace (length pre + d + 1) with (length pre + S d) by lia. exact E.
    - assert (Hr : ~ length pre + d < len).
      { rewrite <- L1. intros H. assert (length (skipn (length pre + d) inp) <> 0) by (rewrite skipn_length; lia). rewrite Sk in H0. simpl in H0. lia. }
      destruct (IH inp pre rest L1 L2 Sk Le) as (j & inp' & E).
      exists (S j), inp'. rewrite iter_S. unfold lstep at 2. cbn [wstep fst snd]. rewrite A, Nat.sub_0_r.
      destruct (Nat.ltb_spec (length pre + d) len); [lia|]. exact E.
    - destruct rest as [|x rest]. { rewrite app_nil_r in L2. lia. }
      destruct (write_at inp pre rest x u len L1 L2) as (inp1 & W & Li & Sk1).
      assert (L2' : length ((pre ++ [u]) ++ rest) = len). { rewrite !app_length in *. simpl in *. lia. }
      destruct (IH inp1 (pre ++ [u]) rest Li L2') as (j & inp' & E).
      { rewrite app_length. simpl. rewrite <- Sk. transitivity (skipn (length pre + 1 + d) inp); [|f_equal; lia].
        apply skipn_more with (a := length pre + 1); [lia|exact Sk1]. }
      { rewrite app_length. simpl. lia. }
      exists (S j), inp'. rewrite iter_S. unfold lstep at 2. cbn [wstep fst snd]. rewrite A, Nat.sub_0_r.
      destruct (Nat.ltb_spec (length pre) len); [|lia]. cbn [Nat.add]. rewrite W.
      rewrite app_length in E. cbn [length] in E. rewrite <- !app_assoc in E. cbn [app] in E.
      replace (length pre + S d) with (length pre + 1 + d) by lia. exact E.
    - destruct e.
      1: { exists 1, inp. cbn. unfold lstep. cbn [wstep fst snd]. rewrite A. reflexivity. }
      all: match goal with |- exists k i, Nat.iter k _ _ = (WDone (err_of ?e), _) =>
             destruct (zero_run e len (pre ++ rest) inp [] L1 L2) as [inp' E] end;
           exists (S (length (pre ++ rest) + 1)), inp'; rewrite iter_S; unfold lstep at 2; cbn [wstep fst snd]; rewrite A; cbv iota beta;
           cbn [app length] in E; etransitivity; [exact E|]; rewrite L2; reflexivity.
  Qed.

  Lemma run_worker len q l w e old : runs act 0 q l w e -> length l = len -> length old = len ->
    exists k inp', Nat.iter k (lstep len) (WRun q 0 0, (l, old)) = (WDone (err_of e), (inp', left_by old w e)).
  Proof.
    intros R L1 L2. destruct (run_alone len 0 q l w e R l [] old L1 L2 eq_refl) as (k & inp' & E).
    { simpl. lia. }
    exists k, inp'. cbn [length Nat.add] in E. etransitivity; [exact E|]. unfold left_by. rewrite L2. destruct e; reflexivity.
  Qed.

  (** ** Every schedule *)
  Variable q0 : Q.
  Variable input : list T.
  Variable out0 : list U.
  Variable res : list (list U * err).
  Hypothesis Ln : length input = n.
  Hypothesis Lo : length out0 = n.
  (** what each worker comes to when it runs alone *)
  Definition ends_alone (r : nat * nat) (we : list U * err) : Prop := exists k inp',
    Nat.iter k (lstep (size r)) (WRun q0 0 0, (seg input r, seg out0 r)) = (WDone (err_of (snd we)), (inp', left_by (seg out0 r) (fst we) (snd we))).
  Hypothesis RES : Forall2 ends_alone ranges res.

  Let g0 := ginit q0 ranges (input, out0).

  Lemma init_wf : wf g0.
  Proof. unfold wf, g0, ginit. simpl. rewrite map_length. auto. Qed.

  Lemma init_local t r : nth_error ranges t = Some r -> local g0 t = Some (WRun q0 0 0, (seg input r, seg out0 r)).
  Proof. intros R. unfold local, g0, ginit. simpl. rewrite R, nth_error_map, R. reflexivity. Qed.

  Lemma worker_end t r : nth_error ranges t = Some r ->
    exists we k inp', nth_error res t = Some we /\
      Nat.iter k (lstep (size r)) (WRun q0 0 0, (seg input r, seg out0 r)) =
        (WDone (err_of (snd we)), (inp', left_by (seg out0 r) (fst we) (snd we))).
  Proof.
    intros R. assert (exists we, nth_error res t = Some we /\ ends_alone r we) as (we & E & k & inp' & I); [|exists we, k, inp'; auto].
    clear -R RES. revert t R. induction RES as [|r0 we rs res0 H F IH]; intros [|t] R; try discriminate.
    - simpl in R. inversion R; subst. exists we. auto.
    - simpl in *. auto.
  Qed.

  Lemma worker_at sched t r : nth_error ranges t = Some r ->
    exists we w m, nth_error res t = Some we /\
      local (grun act alias ranges sched g0) t = Some (w, m) /\ w <> WCrash /\
      (forall e, w = WDone e -> e = err_of (snd we) /\ snd m = left_by (seg out0 r) (fst we) (snd we)).
  Proof.
    intros R. destruct (worker_end t r R) as (we & k & inp' & E & I).
    destruct (grun_local sched g0 init_wf) as [_ L]. specialize (L t r _ R (init_local t r R)).
    set (c := count_occ Nat.eq_dec sched t) in *. destruct (Nat.iter c (lstep (size r)) _) as [w m] eqn:C in L.
    exists we, w, m. split; auto. split; auto.
    assert (X : forall j, Nat.iter j (lstep (size r)) (w, m) =
      Nat.iter (j + c) (lstep (size r)) (WRun q0 0 0, (seg input r, seg out0 r))).
    { intros j. rewrite iter_add. f_equal. symmetry. exact C. }
    assert (Fin : exists j, Nat.iter j (lstep (size r)) (w, m) = (WDone (err_of (snd we)), (inp', left_by (seg out0 r) (fst we) (snd we)))).
    { exists k. rewrite X, Nat.add_comm, iter_add. etransitivity; [apply f_equal; exact I|apply done_stays]. }
    destruct Fin as [j J]. split.
    - intros ->. rewrite crash_stays in J. discriminate.
    - intros e ->. rewrite done_stays in J. inversion J; subst. auto.
  Qed.

  Lemma local_inv g t w m : local g t = Some (w, m) ->
    exists r, nth_error ranges t = Some r /\ nth_error (fst g) t = Some w /\ m = mseg (snd g) r.
  Proof.
    unfold local. destruct (nth_error ranges t) as [r|]; [|discriminate]. destruct (nth_error (fst g) t) as [w'|]; [|discriminate].
    intros E; inversion E; subst. eauto.
  Qed.

  Lemma any_no_crash sched : ~ In WCrash (fst (grun act alias ranges sched g0)).
  Proof.
    intros I. apply In_nth_error in I as [t I].
    destruct (grun_local sched g0 init_wf) as [[W _] _].
    destruct (nth_error ranges t) as [r|] eqn:R.
    - destruct (worker_at sched t r R) as (we & w & m & _ & L & NC & _).
      apply local_inv in L as (r' & _ & Q1 & _). congruence.
    - apply nth_error_None in R. assert (t < length (fst (grun act alias ranges sched g0))) by (apply nth_error_Some; congruence). lia.
  Qed.

  Lemma any_final sched : let g := grun act alias ranges sched g0 in
    all_done g ->
    fst g = map (fun we => WDone (err_of (snd we))) res /\
    snd (snd g) = concat (map (fun p => left_by (seg out0 (fst p)) (fst (snd p)) (snd (snd p))) (combine ranges res)).
  Proof.
    intros g D. destruct (grun_local sched g0 init_wf) as [(W1 & W2 & W3) _]. fold g in W1, W2, W3.
    assert (LR : length ranges = length res) by (clear -RES; induction RES; simpl; auto).
    assert (A : forall t r, nth_error ranges t = Some r -> exists we, nth_error res t = Some we /\
      nth_error (fst g) t = Some (WDone (err_of (snd we))) /\ seg (snd (snd g)) r = left_by (seg out0 r) (fst we) (snd we)).
    { intros t r R. destruct (worker_at sched t r R) as (we & w & m & E & L & _ & F). fold g in L.
      apply local_inv in L as (r' & R' & Q1 & ->). assert (r' = r) by congruence. subst r'.
      assert (exists e, w = WDone e) as [e ->]. { unfold all_done in D. rewrite Forall_forall in D. apply D. eapply nth_error_In; eauto. }
      destruct (F e eq_refl) as [-> M]. exists we. auto. }
    split.
    - apply list_ext. intros t. rewrite nth_error_map. destruct (nth_error ranges t) as [r|] eqn:R.
      + destruct (A t r R) as (we & -> & -> & _). reflexivity.
      + apply nth_error_None in R. assert (nth_error (fst g) t = None) as -> by (apply nth_error_None; lia).
        assert (nth_error res t = None) as -> by (apply nth_error_None; lia). reflexivity.
    - rewrite <- (seg_all (snd (snd g))), W3, <- (chain_concat (snd (snd g)) 0 ranges n CH) by lia.
      f_equal. apply list_ext. intros t. rewrite !nth_error_map. destruct (nth_error ranges t) as [r|] eqn:R.
      + destruct (A t r R) as (we & E & _ & S). simpl. rewrite S.
        assert (nth_error (combine ranges res) t = Some (r, we)) as ->; [|reflexivity].
        clear -R E. revert ranges res R E. induction t as [|t IH]; intros [|r0 rs] [|w0 ws] R E; simpl in *; try discriminate; [congruence|auto].
      + assert (nth_error (combine ranges res) t = None) as ->; [|reflexivity].
        apply nth_error_None. rewrite combine_length. apply nth_error_None in R. lia.
  Qed.

  Lemma any_progress : exists k, forall sched, (forall t, t < length ranges -> k <= count_occ Nat.eq_dec sched t) ->
    all_done (grun act alias ranges sched g0).
  Proof.
    assert (exists k, forall t r, nth_error ranges t = Some r -> exists e m,
      Nat.iter k (lstep (size r)) (WRun q0 0 0, (seg input r, seg out0 r)) = (WDone e, m)) as [k K].
    { assert (H : forall j, j <= length ranges -> exists k, forall t r, t < j -> nth_error ranges t = Some r -> exists e m,
        Nat.iter k (lstep (size r)) (WRun q0 0 0, (seg input r, seg out0 r)) = (WDone e, m)).
      { induction j as [|j IH]; intros Hj; [exists 0; intros; lia|]. destruct IH as [k1 K1]; [lia|].
        destruct (nth_error ranges j) as [r|] eqn:R; [|apply nth_error_None in R; lia].
        destruct (worker_end j r R) as (we & k2 & inp' & _ & I). exists (k1 + k2). intros t r' Ht R'.
        destruct (Nat.eq_dec t j) as [->|N].
        - assert (r' = r) by congruence. subst. do 2 eexists. rewrite iter_add.
          etransitivity; [apply f_equal; exact I|apply done_stays].
        - destruct (K1 t r' ltac:(lia) R') as (e & m & I'). do 2 eexists. rewrite Nat.add_comm, iter_add.
          etransitivity; [apply f_equal; exact I'|apply done_stays]. }
      destruct (H (length ranges) (le_n _)) as [k K]. exists k. intros t r R. apply (K t r); auto. apply nth_error_Some. congruence. }
    exists k. intros sched C. destruct (grun_local sched g0 init_wf) as [[W _] L].
    apply Forall_forall. intros w I. apply In_nth_error in I as [t I].
    assert (Ht : t < length ranges). { rewrite <- W. apply nth_error_Some. congruence. }
    destruct (nth_error ranges t) as [r|] eqn:R; [|apply nth_error_None in R; lia].
    specialize (L t r _ R (init_local t r R)). specialize (C t Ht). destruct (K t r R) as (e & m & I').
    replace (count_occ Nat.eq_dec sched t) with ((count_occ Nat.eq_dec sched t - k) + k) in L by lia.
    rewrite iter_add in L. destruct (local (grun act alias ranges sched g0) t) as [[w' m']|] eqn:Q1; [|discriminate].
    apply local_inv in Q1 as (r' & _ & Q1 & _). rewrite I in Q1. inversion Q1; subst w'. exists e.
    assert (X : Some (w, m') = Some (WDone e, m)).
    { etransitivity; [exact L|]. f_equal. etransitivity; [apply f_equal; exact I'|]. apply done_stays. }
    congruence.
  Qed.
End Workers.

(** a worker whose transform never returns more values than it has read *)
Section Runs.
  Context {T U Q : Type} `{ZU : Zero U}.
  Variables (act : Q -> action T U Q) (alias : option (U -> T)) (ranges : list (nat * nat)) (n : nat).
  Hypothesis CH : chain 0 ranges n.
  Variables (q0 : Q) (input : list T) (out0 : list U) (res : list (list U * err)).
  Hypothesis (Ln : length input = n) (Lo : length out0 = n).

  Lemma ends_all (P : nat * nat -> list U * err -> Prop) :
    (forall r we, fst r <= snd r -> snd r <= n -> length (seg input r) = size r -> length (seg out0 r) = size r -> P r we -> ends_alone act alias q0 input out0 r we) ->
    Forall2 P ranges res -> Forall2 (ends_alone act alias q0 input out0) ranges res.
  Proof.
    intros H F. assert (B : forall r, In r ranges -> fst r <= snd r /\ snd r <= n).
    { intros r I. apply In_nth_error in I as [t E]. pose proof (chain_in _ _ _ CH t r E). lia. }
    clear CH. induction F as [|r we rs res0 R F IH]; constructor.
    - destruct (B r (or_introl eq_refl)) as [B1 B2]. destruct r as [lo hi]. cbn [fst snd] in *.
      apply H; auto; unfold size; cbn [fst snd]; apply seg_length; lia.
    - apply IH. intros x I. apply B. right. exact I.
  Qed.
  Hypothesis RES : Forall2 (fun r we => runs act 0 q0 (seg input r) (fst we) (snd we)) ranges res.
  Lemma runs_ends : Forall2 (ends_alone act alias q0 input out0) ranges res.
  Proof. refine (ends_all _ _ RES). intros r we _ _ L1 L2 R. exact (run_worker act alias (size r) q0 _ _ _ (seg out0 r) R L1 L2). Qed.
  Lemma par_no_crash sched : ~ In WCrash (fst (grun act alias ranges sched (ginit q0 ranges (input, out0)))).
  Proof. exact (any_no_crash act alias ranges n CH q0 input out0 res Ln Lo runs_ends sched). Qed.
  Lemma par_final sched : let g := grun act alias ranges sched (ginit q0 ranges (input, out0)) in
    all_done g ->
    fst g = map (fun we => WDone (err_of (snd we))) res /\
    snd (snd g) = concat (map (fun p => left_by (seg out0 (fst p)) (fst (snd p)) (snd (snd p))) (combine ranges res)).
  Proof. exact (any_final act alias ranges n CH q0 input out0 res Ln Lo runs_ends sched). Qed.
  Lemma par_progress : exists k, forall sched, (forall t, t < length ranges -> k <= count_occ Nat.eq_dec sched t) ->
    all_done (grun act alias ranges sched (ginit q0 ranges (input, out0))).
  Proof. exact (any_progress act alias ranges n CH q0 input out0 res Ln Lo runs_ends). Qed.
End Runs.

(** ** The transforms *)
Lemma map_until_runs {T U} (f : T -> ret U) l : forall d,
  runs (map_error_act f) d MRead l (fst (map_until f l)) (snd (map_until f l)).
Proof.
  induction l as [|x l IH]; intros d; simpl.
  - eapply runs_eoi; [reflexivity|]. apply runs_end. reflexivity.
  - eapply runs_read; [reflexivity|]. simpl. destruct (f x) as [u [e|]]; simpl.
    + apply runs_end. reflexivity.
    + eapply runs_emit; [reflexivity|]. apply IH.
Qed.

Lemma filter_runs {T} (p : T -> bool) l : forall d, runs (filter_act p) d MRead l (filter p l) EOI.
Proof.
  induction l as [|x l IH]; intros d; simpl.
  - eapply runs_eoi; [reflexivity|]. apply runs_end. reflexivity.
  - eapply runs_read; [reflexivity|]. simpl. destruct (p x); [|apply IH].
    eapply runs_emit; [reflexivity|]. apply IH.
Qed.

Lemma map_until_pure {T U} (f : T -> U) l : map_until (fun x => (f x, None)) l = (map f l, EOI).
Proof. induction l as [|x l IH]; simpl; auto. rewrite IH. reflexivity. Qed.

Lemma first_error_map {Q} (l : list err) : first_error (map (fun e => WDone (Q := Q) (err_of e)) l) = first_of (map err_of l).
Proof. induction l as [|e l IH]; simpl; auto. destruct e; simpl; auto. Qed.
