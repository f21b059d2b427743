From Coq Require Import Permutation Sorting.
From Verif Require Import Base Slice SliceMem SliceMemProofs GoMap Funcs FuncsSpec.
Open Scope nat_scope.

Section Slices.
  Context {T : Type} {ZT : Zero T} (ex : nat -> nat -> nat).
  Implicit Types (m : mem T) (s t : slice).

  Lemma frame_nowhere_unchanged m m' : frame nowhere m m' -> all_unchanged m m'.
  Proof. intros F t V. split; [eapply frame_valid; eauto|]. eapply frame_contents; eauto. Qed.

  Lemma frame_spare_fresh m0 m m' s n : length m0 <= length m -> fresh m0 s -> frame (spare s n) m m' ->
    frame nowhere m0 m -> frame nowhere m0 m'.
  Proof.
    intros L F (A & B & C) (A' & B' & C'). split; [lia|]. split.
    - intros a H. rewrite B, B'; auto; lia.
    - intros a i H N. rewrite C, C'; auto; try lia. intros S. destruct s as [h|]; simpl in *; [lia|auto].
  Qed.

  (** appending to a fresh slice leaves the older memory alone and gives a fresh slice *)
  Lemma sappend_fresh m0 m s vs m' s' : frame nowhere m0 m -> fresh m0 s -> valid m s -> sappend ex m s vs = (m', s') ->
    frame nowhere m0 m' /\ fresh m0 s' /\ valid m' s' /\ contents m' s' = contents m s ++ vs.
  Proof.
    intros F FS V E. pose proof (sappend_spec ex m s vs V) as P. rewrite E in P. destruct P as (P1 & P2 & P3 & P4 & P5 & P6).
    assert (L : length m0 <= length m) by apply F. split; [eapply frame_spare_fresh; eauto|]. split; [|auto].
    destruct (Nat.le_gt_cases (slen s + length vs) (scap s)) as [C|C].
    - destruct (P5 C) as (_ & _ & Q). destruct s as [h|], s' as [h'|]; simpl in *; try tauto. destruct Q as [-> _]. auto.
    - destruct (P6 C) as ((h & -> & A) & _). simpl. lia.
  Qed.

  Lemma slice_add_spec m s v m' s' : valid m s -> slice_add ex m s v = (m', s') ->
    valid m' s' /\ contents m' s' = contents m s ++ [v] /\ s' <> None /\ frame (spare_cell s) m m' /\
    (fresh m s' \/ exists h h', s = Some h /\ s' = Some h' /\ arr h' = arr h /\ off h' = off h) /\
    (forall h', s' = Some h' -> arr h' < length m').
  Proof.
    intros V E. unfold slice_add in E.
    assert (VL : valid m' s' -> forall h', s' = Some h' -> arr h' < length m').
    { intros Q h' ->. apply Q. }
    destruct s as [h|].
    - pose proof (sappend_spec ex m (Some h) [v] V) as P. rewrite E in P. destruct P as (P1 & P2 & P3 & P4 & P5 & P6).
      assert (NN : s' <> None). { intros ->. simpl in P3. lia. }
      split; [auto|]. split; [auto|]. split; [auto|]. split; [|split; [|auto]].
      + eapply frame_weaken; [|exact P4]. simpl. intros. lia.
      + destruct (Nat.le_gt_cases (slen (Some h) + length [v]) (scap (Some h))) as [C|C].
        * right. destruct (P5 C) as (_ & _ & Q). destruct s' as [h'|]; [|tauto]. exists h, h'. tauto.
        * left. destruct (P6 C) as ((h' & -> & A) & _). simpl. lia.
    - pose proof (smake_spec m 0 0) as P. destruct (smake m 0 0) as [m1 s1]. destruct P as (P1 & P2 & P3 & P4 & P5 & P6 & (h & Eh & Ah) & P8).
      assert (FS : fresh m s1) by (subst s1; simpl; lia).
      destruct (sappend_fresh m m1 s1 [v] m' s' P3 FS P1 E) as (Q1 & Q2 & Q3 & Q4).
      split; [auto|]. split; [rewrite Q4, P2; reflexivity|]. split; [intros ->; exact Q2|].
      split; [eapply frame_weaken; [|exact Q1]; intros ? ? ? []|]. split; [left; auto|auto].
  Qed.

  Lemma frame_fresh_cells m0 m m' s : fresh m0 s -> frame nowhere m0 m -> frame (cells_of s) m m' -> frame nowhere m0 m'.
  Proof.
    intros F (A & B & C) (A' & B' & C'). split; [lia|]. split.
    - intros a H. rewrite B', B; auto; lia.
    - intros a i H N. rewrite C', C; auto; try lia. intros S. destruct s as [h|]; simpl in *; [lia|auto].
  Qed.

  Lemma slice_copy_spec m s : valid m s -> let (m', s') := slice_copy m s in
    valid m' s' /\ contents m' s' = contents m s /\ fresh m s' /\ frame nowhere m m' /\ s' <> None.
  Proof.
    intros V. unfold slice_copy. pose proof (smake_spec m (slen s) (slen s)) as P.
    destruct (smake m (slen s) (slen s)) as [m1 s1]. destruct P as (P1 & P2 & P3 & P4 & P5 & P6 & (h & Eh & Ah) & P8).
    assert (V1 : valid m1 s) by (eapply frame_valid; eauto).
    destruct (scopy_spec m1 s1 s P1 V1) as (Q1 & Q2 & Q3); [lia|].
    assert (FS : fresh m s1) by (subst s1; simpl; lia).
    split; [auto|]. split; [|split; [|split; [|auto]]]; auto.
    - rewrite Q1. rewrite (frame_contents nowhere m m1 s P3 V) by auto. rewrite P5.
      rewrite firstn_all2; auto. rewrite contents_length; auto.
    - eapply frame_fresh_cells; eauto.
  Qed.

  Lemma slice_index_spec m s i d : valid m s -> slice_index m s i d = Done (or_default (at_index (contents m s) i) d).
  Proof.
    intros V. pose proof (contents_length m s V) as CL. unfold slice_index, at_index. destruct s as [h|].
    - rewrite CL. set (l := slen (Some h)) in *. unfold sget.
      destruct (Z.leb_spec 0 i); cbn [andb].
      + destruct (Z.ltb_spec i (Z.of_nat l)).
        * destruct (nth_error (contents m (Some h)) (Z.to_nat i)) eqn:N; [reflexivity|].
          apply nth_error_None in N. lia.
        * replace (i <? 0)%Z with false by lia. cbn [andb].
          replace (nth_error (contents m (Some h)) (Z.to_nat i)) with (@None T); [reflexivity|].
          symmetry. apply nth_error_None. lia.
      + replace (i <? 0)%Z with true by lia. cbn [andb]. destruct (Z.leb_spec 0 (Z.of_nat l + i)); [|reflexivity].
        destruct (nth_error (contents m (Some h)) (Z.to_nat (Z.of_nat l + i))) eqn:N; [reflexivity|].
        apply nth_error_None in N. lia.
    - simpl. destruct (0 <=? i)%Z; [destruct (Z.to_nat i); reflexivity|]. destruct (0 <=? i)%Z; [destruct (Z.to_nat i)|]; reflexivity.
  Qed.

  Section Remove.
    Variable same : T -> bool.

    Lemma rm_first_app a x b : (forall y, In y a -> same y = false) -> same x = true -> rm_first same (a ++ x :: b) = a ++ b.
    Proof.
      induction a as [|y a IH]; simpl; intros H X; [rewrite X; reflexivity|].
      rewrite (H y) by auto. f_equal. apply IH; auto.
    Qed.
    Lemma rm_first_none a : (forall y, In y a -> same y = false) -> rm_first same a = a.
    Proof. induction a as [|y a IH]; simpl; intros H; auto. rewrite (H y) by auto. f_equal. auto. Qed.

    Lemma remove_first_loop_spec m s : valid m s -> forall rest seen, contents m s = seen ++ rest ->
      (forall y, In y seen -> same y = false) ->
      exists m' s', remove_first_loop ex same m s (length seen) rest = Done (m', s') /\ valid m' s' /\
        frame nowhere m m' /\ contents m' s' = rm_first same (contents m s) /\
        ((s' = s /\ m' = m /\ existsb same rest = false) \/ (fresh m s' /\ existsb same rest = true)).
    Proof.
      intros V. pose proof (contents_length m s V) as CL. induction rest as [|x rest IH]; intros seen E N.
      - exists m, s. simpl. split; [auto|]. split; [auto|]. split; [apply frame_refl|]. split; [|left; auto].
        symmetry. apply rm_first_none. rewrite E, app_nil_r. exact N.
      - cbn [remove_first_loop existsb]. destruct (same x) eqn:X.
        + pose proof (smake_spec m 0 (slen s - 1)) as P. destruct (smake m 0 (slen s - 1)) as [m1 s1].
          destruct P as (P1 & P2 & P3 & P4 & P5 & P6 & (h & Eh & Ah) & P8).
          assert (V1 : valid m1 s) by (eapply frame_valid; eauto).
          assert (C1 : contents m1 s = contents m s) by (eapply frame_contents; eauto).
          assert (LS : slen s = length seen + S (length rest)).
          { rewrite <- CL, E, app_length. reflexivity. }
          assert (FS : fresh m s1) by (subst s1; simpl; lia).
          destruct (reslice_spec m1 s 0 (length seen) V1) as (b & Eb & Cb & Vb & Lb & _); [lia|].
          cbn [obind]. rewrite Eb. cbn [obind].
          destruct (sappend ex m1 s1 (contents m1 b)) as [m2 s2] eqn:E2.
          destruct (sappend_fresh m m1 s1 _ m2 s2 P3 FS P1 E2) as (Q1 & Q2 & Q3 & Q4).
          assert (V2 : valid m2 s) by (eapply frame_valid; eauto).
          assert (C2 : contents m2 s = contents m s) by (eapply frame_contents; eauto).
          destruct (reslice_spec m2 s (length seen + 1) (slen s) V2) as (a & Ea & Ca & Va & La & _); [lia|].
          rewrite Ea. cbn [obind].
          destruct (sappend ex m2 s2 (contents m2 a)) as [m3 s3] eqn:E3.
          destruct (sappend_fresh m m2 s2 _ m3 s3 Q1 Q2 Q3 E3) as (R1 & R2 & R3 & R4).
          exists m3, s3. split; [auto|]. split; [auto|]. split; [auto|]. split; [|right; auto].
          rewrite R4, Q4, P2, Cb, Ca, C1, C2, E. cbn [repeat app].
          rewrite (rm_first_app seen x rest) by auto. f_equal.
          * cbn [skipn]. rewrite Nat.sub_0_r, firstn_app, Nat.sub_diag, firstn_O, app_nil_r, firstn_all. reflexivity.
          * replace (length seen + 1) with (length (seen ++ [x])) by (rewrite app_length; simpl; lia).
            replace (seen ++ x :: rest) with ((seen ++ [x]) ++ rest) by (rewrite <- app_assoc; reflexivity).
            rewrite skipn_app, Nat.sub_diag, skipn_all. cbn [app skipn]. apply firstn_all2. rewrite app_length. simpl. lia.
        + replace (length seen + 1) with (length (seen ++ [x])) by (rewrite app_length; simpl; lia).
          apply IH; [rewrite <- app_assoc; exact E|]. intros y I. apply in_app_or in I as [I|[<-|[]]]; auto.
    Qed.

    Lemma remove_all_loop_spec m0 : forall rest m s, valid m s -> fresh m0 s -> frame nowhere m0 m ->
      let (m', s') := remove_all_loop ex same m s rest in
      valid m' s' /\ fresh m0 s' /\ frame nowhere m0 m' /\ contents m' s' = contents m s ++ rm_all same rest.
    Proof.
      induction rest as [|x rest IH]; intros m s V F FR; simpl.
      - rewrite app_nil_r. auto.
      - destruct (same x); simpl; [apply IH; auto|].
        destruct (sappend ex m s [x]) as [m1 s1] eqn:E1.
        destruct (sappend_fresh m0 m s _ m1 s1 FR F V E1) as (Q1 & Q2 & Q3 & Q4).
        specialize (IH m1 s1 Q3 Q2 Q1). destruct (remove_all_loop ex same m1 s1 rest) as [m' s'].
        destruct IH as (A & B & C & D). split; [auto|]. split; [auto|]. split; [auto|]. rewrite D, Q4, <- app_assoc. reflexivity.
    Qed.

    Lemma slice_remove_spec m s all : valid m s ->
      exists m' s', slice_remove ex same m s all = Done (m', s') /\ valid m' s' /\ frame nowhere m m' /\
        contents m' s' = rm all same (contents m s) /\
        ((s' = s /\ m' = m /\ all = false /\ existsb same (contents m s) = false) \/
         (fresh m s' /\ (all = true \/ existsb same (contents m s) = true))).
    Proof.
      intros V. unfold slice_remove. destruct all; cbn [negb rm].
      - pose proof (smake_spec m 0 0) as P. destruct (smake m 0 0) as [m1 s1].
        destruct P as (P1 & P2 & P3 & P4 & P5 & P6 & (h & Eh & Ah) & P8).
        assert (C1 : contents m1 s = contents m s) by (eapply frame_contents; eauto).
        assert (FS : fresh m s1) by (subst s1; simpl; lia).
        pose proof (remove_all_loop_spec m (contents m1 s) m1 s1 P1 FS P3) as R.
        destruct (remove_all_loop ex same m1 s1 (contents m1 s)) as [m' s']. destruct R as (A & B & C & D).
        exists m', s'. split; [auto|]. split; [auto|]. split; [auto|]. split; [|right; auto]. rewrite D, P2, C1. reflexivity.
      - destruct (remove_first_loop_spec m s V (contents m s) [] eq_refl) as (m' & s' & A & B & C & D & F); [intros ? []|].
        exists m', s'. split; [auto|]. split; [auto|]. split; [auto|]. split; [auto|]. destruct F as [(F1 & F2 & F3)|(F1 & F2)]; [left|right]; auto.
    Qed.
  End Remove.

  (** in-place reversal: the memory version follows the list version of Slice.v *)
  Lemma slice_reverse_loop_sim n : forall i m s, valid m s ->
    match slice_reverse_loop n i m s with
    | Done m' => valid m' s /\ frame (cells_of s) m m' /\ length m' = length m /\
                 reverse_loop n i (contents m s) = Done (contents m' s)
    | Panicked => reverse_loop n i (contents m s) = Panicked
    | OutOfFuel => False
    end.
  Proof.
    induction n as [|n IH]; intros i m s V; cbn [slice_reverse_loop reverse_loop].
    - split; [auto|]. split; [apply frame_refl|auto].
    - pose proof (contents_length m s V) as CL. rewrite CL. unfold sget.
      destruct (nth_error (contents m s) i) as [a|] eqn:Na; cbn [obind]; [|reflexivity].
      destruct (nth_error (contents m s) (slen s - 1 - i)) as [b|] eqn:Nb; cbn [obind]; [|reflexivity].
      pose proof (sset_spec m s i b V) as S1. destruct (sset m s i b) as [m1| |]; cbn [obind]; [|rewrite set_nth_none by lia; reflexivity|tauto].
      destruct S1 as (L1 & F1 & Lm1 & E1 & V1). rewrite E1.
      pose proof (sset_spec m1 s (slen s - 1 - i) a V1) as S2.
      destruct (sset m1 s (slen s - 1 - i) a) as [m2| |]; cbn [obind]; [| |tauto].
      2: { rewrite set_nth_none; [reflexivity|]. rewrite (contents_length m1 s V1). lia. }
      destruct S2 as (L2 & F2 & Lm2 & E2 & V2). rewrite E2.
      specialize (IH (i + 1) m2 s V2). destruct (slice_reverse_loop n (i + 1) m2 s); auto.
      destruct IH as (A & B & C & D). split; [auto|]. split.
      + eapply frame_trans; [exact F1|]. eapply frame_trans; [exact F2|exact B].
      + split; [lia|auto].
  Qed.

  Lemma slice_reverse_mem_spec m s : valid m s ->
    exists m', slice_reverse_mem m s = Done m' /\ valid m' s /\ contents m' s = rev (contents m s) /\ frame (cells_of s) m m'.
  Proof.
    intros V. pose proof (slice_reverse_loop_sim (Nat.div (slen s) 2) 0 m s V) as H.
    pose proof (slice_reverse_spec (contents m s)) as R. unfold slice_reverse in R. rewrite (contents_length m s V) in R.
    unfold slice_reverse_mem. rewrite R in H. destruct (slice_reverse_loop (slen s / 2) 0 m s) as [m'| |]; [|discriminate|tauto].
    destruct H as (A & B & C & D). exists m'. split; [auto|]. split; [auto|]. split; [congruence|auto].
  Qed.

  Lemma slice_sort_spec sort m s : valid m s -> (forall l, Permutation l (sort l)) ->
    valid (slice_sort sort m s) s /\ contents (slice_sort sort m s) s = sort (contents m s) /\ frame (cells_of s) m (slice_sort sort m s).
  Proof.
    intros V P. pose proof (contents_length m s V) as CL. destruct s as [h|]; simpl.
    2: { split; [exact I|]. split; [symmetry; apply Permutation_nil; apply P|apply frame_refl]. }
    fold (contents m (Some h)). set (vs := sort (contents m (Some h))).
    assert (Lv : length vs = len h). { unfold vs. rewrite <- (Permutation_length (P _)). exact CL. }
    pose proof V as V0. simpl in V. destruct V as (V1 & V2 & V3).
    assert (FR : frame (cells_of (Some h)) m (upd m (arr h) (write_at (array m (arr h)) (off h) vs))).
    { apply frame_upd; auto; [lia|]. intros k Hk. simpl. lia. }
    split; [exact (frame_valid _ _ _ _ FR V0)|]. split; [|exact FR].
    change (contents (upd m (arr h) (write_at (array m (arr h)) (off h) vs)) (Some h) = vs).
    apply nth_error_ext. intros k. rewrite contents_nth. unfold cell.
    rewrite array_upd, Nat.eqb_refl, write_at_nth by (auto; lia).
    destruct (Nat.ltb_spec k (len h)).
    - destruct (Nat.ltb_spec (off h + k) (off h)); [lia|]. destruct (Nat.ltb_spec (off h + k) (off h + length vs)); [|lia].
      f_equal. lia.
    - symmetry. apply nth_error_None. lia.
  Qed.
End Slices.

Section ToMap.
  Context {T K : Type} (eqb : K -> K -> bool) (E : eq_decides eqb).

  Lemma slice_to_map_by_spec (fn : T -> K) : forall slc res k, mok res ->
    mok (slice_to_map_by eqb fn slc res) /\
    (mget eqb (slice_to_map_by eqb fn slc res) k = if existsb (fun x => eqb k (fn x)) slc then Some true else mget eqb res k).
  Proof.
    induction slc as [|x slc IH]; intros res k O; simpl; [auto|].
    destruct (IH (mset eqb res (fn x) true) k) as (A & B); [apply mset_ok; auto|]. split; auto. rewrite B, mget_set by auto.
    destruct (eqb k (fn x)); simpl; auto. destruct (existsb (fun x0 => eqb k (fn x0)) slc); auto.
  Qed.

  Lemma uniq_loop_spec : forall slc u, mok u -> mok (uniq_loop eqb slc u) /\
    (forall k, In k (map fst (uniq_loop eqb slc u)) <-> In k slc \/ In k (map fst u)).
  Proof.
    induction slc as [|x slc IH]; intros u O; simpl; [split; [auto|]; tauto|].
    destruct (IH (mset eqb u x 0)) as (A & B); [apply mset_ok; auto|]. split; auto. intros k. rewrite B.
    rewrite mset_keys by auto. destruct (existsb (eqb x) (map fst u)) eqn:X.
    - apply existsb_In in X; auto. split; [tauto|]. intros [[<-|H]|H]; auto.
    - rewrite in_app_iff. simpl. tauto.
  Qed.
End ToMap.

(** ** SliceFlatten *)
Lemma gval_ind' (P : gval -> Prop) :
  (forall id v, P (VScalar id v)) -> (forall id d, P (VIface id d)) ->
  (forall n e vals, (forall x, In x vals -> P x) -> P (VSlice n e vals)) -> forall v, P v.
Proof.
  intros A B C. fix F 1. intros [id v|id d|n e vals]; [apply A|apply B|]. apply C.
  induction vals as [|y vals IH]; intros x I; [destruct I|]. destruct I as [<-|I]; [apply F|apply IH; exact I].
Qed.

Lemma flatten_f_spec v : forall rslc, (exists n e vals, v = VSlice n e vals) ->
  flatten_f v rslc = if existsb is_nil_iface (leaves v) then Panicked else Done (rslc ++ leaves v).
Proof.
  induction v as [id z|id d|n e vals IH] using gval_ind'; intros rslc (n' & e' & vals' & Q); try discriminate. clear n' e' vals' Q.
  cbn [flatten_f leaves]. revert rslc. induction vals as [|x vals IHv]; intros rslc; cbn [flat_map existsb app].
  - rewrite app_nil_r. reflexivity.
  - rewrite existsb_app. assert (IH2 : forall y, In y vals -> forall rslc, (exists n e vals, y = VSlice n e vals) ->
        flatten_f y rslc = if existsb is_nil_iface (leaves y) then Panicked else Done (rslc ++ leaves y)) by (intros; apply IH; simpl; auto).
    specialize (IHv IH2). clear IH2.
    destruct x as [id z|id d|n' e' vals'].
    + cbn [assert_elem obind leaves existsb is_nil_iface orb]. rewrite IHv.
      destruct (existsb is_nil_iface (flat_map leaves vals)); auto. rewrite <- app_assoc. reflexivity.
    + cbn [leaves existsb is_nil_iface]. destruct d as [d|]; cbn [assert_elem obind orb]; [|reflexivity]. rewrite IHv.
      destruct (existsb is_nil_iface (flat_map leaves vals)); auto. rewrite <- app_assoc. reflexivity.
    + rewrite (IH (VSlice n' e' vals')) by (simpl; eauto). destruct (existsb is_nil_iface (leaves (VSlice n' e' vals'))); cbn [obind orb]; [reflexivity|].
      rewrite IHv. destruct (existsb is_nil_iface (flat_map leaves vals)); auto. rewrite <- app_assoc. reflexivity.
Qed.

(** the leaves of a well typed one dimensional slice are its elements *)
Lemma leaves_1d n e vals : wt (VSlice n e vals) (TSlice n e) -> snd (strip e) = 0 -> leaves (VSlice n e vals) = vals.
Proof.
  intros W S. inversion W as [| |? ? ? H]; subst. cbn [leaves]. clear W.
  induction vals as [|x vals IH]; simpl; auto. rewrite IH by (intros; apply H; simpl; auto).
  assert (Wx : wt x e) by (apply H; simpl; auto).
  destruct x; inversion Wx; subst; simpl; auto.
  simpl in S. destruct (strip elem); simpl in S; discriminate.
Qed.

Lemma wt_leaves v : forall t, wt v t -> forall x, In x (leaves v) -> wt x (fst (strip t)).
Proof.
  induction v as [id z|id d|n e vals IH] using gval_ind'; intros t W x I; inversion W; subst; simpl in I.
  - destruct I as [<-|[]]. simpl. constructor.
  - destruct I as [<-|[]]. simpl. constructor.
  - apply in_flat_map in I as (y & Iy & Ix). simpl. specialize (IH y Iy e ltac:(auto) x Ix).
    destruct (strip e); exact IH.
Qed.
