From Verif Require Import Base Slice SliceMem.
Open Scope nat_scope.

Section Mem.
  Context {T : Type} {ZT : Zero T}.
  Implicit Types (m : mem T) (s t : slice) (l vs : list T).

  Lemma skipn_skipn {A} (a b : nat) (l : list A) : skipn a (skipn b l) = skipn (b + a) l.
  Proof. revert l. induction b as [|b IH]; intros [|x l]; simpl; auto. destruct a; reflexivity. Qed.

  Lemma upd_length m a l : a < length m -> length (upd m a l) = length m.
  Proof. intros H. unfold upd. rewrite app_length, firstn_length. cbn [length]. rewrite skipn_length. lia. Qed.

  Lemma array_upd m a l b : a < length m -> array (upd m a l) b = if b =? a then l else array m b.
  Proof.
    intros H. unfold array, upd. assert (La : length (firstn a m) = a) by (rewrite firstn_length; lia).
    destruct (Nat.eqb_spec b a) as [->|N].
    - rewrite app_nth2 by lia. rewrite La, Nat.sub_diag. reflexivity.
    - destruct (Nat.lt_ge_cases b a).
      + rewrite app_nth1 by lia. rewrite <- (firstn_skipn a m) at 2. rewrite app_nth1 by lia. reflexivity.
      + rewrite app_nth2 by lia. rewrite La. destruct (b - a) as [|d] eqn:D; [lia|]. cbn [nth].
        rewrite <- (firstn_skipn (S a) m) at 2. rewrite app_nth2 by (rewrite firstn_length; lia).
        rewrite firstn_length. f_equal. lia.
  Qed.

  Lemma write_at_length l i vs : i + length vs <= length l -> length (write_at l i vs) = length l.
  Proof. intros H. unfold write_at. rewrite !app_length, firstn_length, skipn_length. lia. Qed.

  Lemma write_at_nth l i vs k : i + length vs <= length l ->
    nth_error (write_at l i vs) k =
    if k <? i then nth_error l k else if k <? i + length vs then nth_error vs (k - i) else nth_error l k.
  Proof.
    intros H. unfold write_at. assert (Li : length (firstn i l) = i) by (rewrite firstn_length; lia).
    destruct (Nat.ltb_spec k i).
    - rewrite nth_error_app1 by lia. rewrite <- (firstn_skipn i l) at 2. rewrite nth_error_app1 by lia. reflexivity.
    - rewrite nth_error_app2 by lia. rewrite Li. destruct (Nat.ltb_spec k (i + length vs)).
      + rewrite nth_error_app1 by lia. reflexivity.
      + rewrite nth_error_app2 by lia. rewrite <- (firstn_skipn (i + length vs) l) at 2.
        rewrite nth_error_app2 by (rewrite firstn_length; lia). rewrite firstn_length. f_equal. lia.
  Qed.

  Lemma nth_error_skipn' {A} n (x : list A) k : nth_error (skipn n x) k = nth_error x (n + k).
  Proof. revert x. induction n; intros [|y x]; simpl; auto. destruct k; reflexivity. Qed.

  Lemma nth_error_firstn' {A} n (x : list A) k : nth_error (firstn n x) k = if k <? n then nth_error x k else None.
  Proof.
    revert x k. induction n as [|n IH]; intros [|y x] [|k]; simpl; auto.
    - change (S k <? S n) with (k <? n). destruct (k <? n); reflexivity.
    - rewrite IH. reflexivity.
  Qed.

  Lemma nth_error_ext {A} (x y : list A) : (forall k, nth_error x k = nth_error y k) -> x = y.
  Proof.
    revert y. induction x as [|a x IH]; intros [|b y] H; auto.
    - specialize (H 0); discriminate.
    - specialize (H 0); discriminate.
    - f_equal; [specialize (H 0); simpl in H; congruence|]. apply IH. intros k. apply (H (S k)).
  Qed.

  Lemma contents_nth m h k : nth_error (contents m (Some h)) k = if k <? len h then cell m (arr h) (off h + k) else None.
  Proof. unfold contents, cell. rewrite nth_error_firstn', nth_error_skipn'. reflexivity. Qed.

  Lemma contents_length m s : valid m s -> length (contents m s) = slen s.
  Proof.
    destruct s as [h|]; simpl; auto. intros (A & B & C). rewrite firstn_length, skipn_length. lia.
  Qed.

  Lemma frame_refl P m : frame P m m.
  Proof. split; [lia|]. split; auto. Qed.

  Lemma frame_weaken (P Q : nat -> nat -> Prop) m m' : (forall a i, a < length m -> P a i -> Q a i) -> frame P m m' -> frame Q m m'.
  Proof. intros H (A & B & C). split; auto. split; auto. Qed.

  Lemma frame_trans P m1 m2 m3 : frame P m1 m2 -> frame P m2 m3 -> frame P m1 m3.
  Proof.
    intros (A & B & C) (A' & B' & C'). split; [lia|]. split.
    - intros a H. rewrite B', B; auto; lia.
    - intros a i H N. rewrite C', C; auto; lia.
  Qed.

  Lemma frame_contents P m m' s : frame P m m' -> valid m s -> (forall a i, cells_of s a i -> ~ P a i) ->
    contents m' s = contents m s.
  Proof.
    intros (A & B & C) V D. destruct s as [h|]; auto. apply nth_error_ext. intros k. rewrite !contents_nth.
    destruct (Nat.ltb_spec k (len h)); auto. apply C; [apply V|]. apply D. simpl. split; auto. lia.
  Qed.

  Lemma frame_valid P m m' s : frame P m m' -> valid m s -> valid m' s.
  Proof.
    intros (A & B & C) V. destruct s as [h|]; auto. simpl in *. destruct V as (V1 & V2 & V3). rewrite B by auto. lia.
  Qed.

  Lemma frame_app P m x : frame P m (m ++ x).
  Proof.
    unfold frame, cell, array. split; [rewrite app_length; lia|]. split.
    - intros a H. rewrite app_nth1 by lia. reflexivity.
    - intros a i H _. rewrite app_nth1 by lia. reflexivity.
  Qed.

  Lemma frame_upd (P : nat -> nat -> Prop) m a i vs : a < length m -> i + length vs <= length (array m a) ->
    (forall k, i <= k < i + length vs -> P a k) ->
    frame P m (upd m a (write_at (array m a) i vs)).
  Proof.
    intros H L HP. split; [rewrite upd_length; auto|]. split.
    - intros b Hb. rewrite array_upd by auto. destruct (Nat.eqb_spec b a) as [->|]; auto. apply write_at_length; auto.
    - intros b k Hb N. unfold cell. rewrite array_upd by auto. destruct (Nat.eqb_spec b a) as [->|]; auto.
      rewrite write_at_nth by auto. destruct (Nat.ltb_spec k i); auto. destruct (Nat.ltb_spec k (i + length vs)); auto.
      exfalso. apply N. apply HP. lia.
  Qed.

  Lemma array_last m x : array (m ++ [x]) (length m) = x.
  Proof. unfold array. rewrite app_nth2, Nat.sub_diag by lia. reflexivity. Qed.

  Lemma smake_spec m n c : let (m', s) := smake m n c in
    valid m' s /\ contents m' s = repeat zv n /\ frame nowhere m m' /\ s <> None /\ slen s = n /\ scap s = n + (c - n) /\
    (exists h, s = Some h /\ arr h = length m) /\ length m' = S (length m).
  Proof.
    unfold smake. split; [|split; [|split; [apply frame_app|split; [discriminate|split; [reflexivity|split; [reflexivity|split]]]]]].
    - cbn [valid arr off len cap]. rewrite array_last, repeat_length, app_length. simpl. lia.
    - unfold contents. cbn [off len arr]. rewrite array_last. cbn [skipn]. rewrite repeat_app.
      rewrite firstn_app, repeat_length, Nat.sub_diag. simpl. rewrite app_nil_r. rewrite firstn_all2; auto. rewrite repeat_length; lia.
    - eexists; split; reflexivity.
    - rewrite app_length; simpl; lia.
  Qed.

  (** cells written by append in place *)
  Definition spare (s : slice) (n a i : nat) : Prop :=
    match s with None => False | Some h => a = arr h /\ off h + len h <= i < off h + len h + n /\ len h + n <= cap h end.

  Lemma sappend_spec ex m s vs : valid m s -> let (m', s') := sappend ex m s vs in
    valid m' s' /\ contents m' s' = contents m s ++ vs /\ slen s' = slen s + length vs /\
    frame (spare s (length vs)) m m' /\
    (slen s + length vs <= scap s -> scap s' = scap s /\ length m' = length m /\
       match s, s' with Some h, Some h' => arr h' = arr h /\ off h' = off h | None, None => True | _, _ => False end) /\
    (scap s < slen s + length vs -> (exists h, s' = Some h /\ arr h = length m) /\ length m' = S (length m)).
  Proof.
    intros V. unfold sappend. pose proof (contents_length m s V) as CL.
    destruct (Nat.leb_spec (slen s + length vs) (scap s)) as [L|L].
    - destruct s as [h|].
      + simpl in L, V. destruct V as (V1 & V2 & V3).
        assert (W : off h + len h + length vs <= length (array m (arr h))) by lia.
        assert (FR : frame (spare (Some h) (length vs)) m
                       (upd m (arr h) (write_at (array m (arr h)) (off h + len h) vs))).
        { apply frame_upd; auto. intros k Hk. simpl. lia. }
        split; [|split; [|split; [reflexivity|split; [exact FR|split]]]].
        * cbn [valid arr off len cap slen]. rewrite upd_length, array_upd, Nat.eqb_refl, write_at_length by lia. simpl in L. lia.
        * apply nth_error_ext. intros k. rewrite contents_nth. cbn [arr off len]. unfold cell.
          rewrite array_upd, Nat.eqb_refl by lia. cbn [slen] in *.
          destruct (Nat.ltb_spec k (len h + length vs)).
          -- rewrite write_at_nth by lia. destruct (Nat.ltb_spec (off h + k) (off h + len h)).
             ++ rewrite nth_error_app1 by lia. rewrite contents_nth. destruct (Nat.ltb_spec k (len h)); [reflexivity|lia].
             ++ destruct (Nat.ltb_spec (off h + k) (off h + len h + length vs)); [|lia].
                rewrite nth_error_app2 by lia. f_equal. lia.
          -- symmetry. apply nth_error_None. rewrite app_length. lia.
        * intros _. cbn [scap cap arr off]. rewrite upd_length by lia. auto.
        * cbn [scap slen]. lia.
      + simpl in L. destruct vs; simpl in L; [|lia].
        split; [exact I|split; [reflexivity|split; [reflexivity|split; [apply frame_refl|split; simpl; [auto|lia]]]]].
    - assert (EQ : contents m s ++ vs ++ repeat zv (ex (scap s) (slen s + length vs)) =
                   (contents m s ++ vs) ++ repeat zv (ex (scap s) (slen s + length vs))) by (rewrite app_assoc; auto).
      rewrite EQ. split; [|split; [|split; [reflexivity|split; [apply frame_app|split]]]].
      + cbn [valid arr off len cap]. rewrite array_last. rewrite !app_length, repeat_length. cbn [length]. lia.
      + unfold contents at 1. cbn [len off arr]. rewrite array_last. cbn [skipn].
        rewrite firstn_app. rewrite firstn_all2 by (rewrite app_length; lia).
        replace (slen s + length vs - length (contents m s ++ vs)) with 0 by (rewrite app_length; lia).
        rewrite firstn_O, app_nil_r. reflexivity.
      + lia.
      + intros _. split; [eexists; split; reflexivity|]. rewrite app_length. simpl. lia.
  Qed.

  Lemma sset_spec m s i v : valid m s ->
    match sset m s i v with
    | Done m' => i < slen s /\ frame (fun a k => cells_of s a k) m m' /\ length m' = length m /\
                 set_nth (contents m s) i v = Some (contents m' s) /\ valid m' s
    | Panicked => slen s <= i
    | OutOfFuel => False
    end.
  Proof.
    intros V. pose proof (contents_length m s V) as CL. destruct s as [h|]; simpl; [|lia].
    destruct (Nat.ltb_spec i (len h)) as [L|L]; auto. simpl in V. destruct V as (V1 & V2 & V3).
    assert (W : off h + i + length [v] <= length (array m (arr h))) by (simpl; lia).
    assert (FR : frame (fun a k => cells_of (Some h) a k) m (upd m (arr h) (write_at (array m (arr h)) (off h + i) [v]))).
    { apply frame_upd; auto. simpl. lia. }
    split; [auto|]. split; [exact FR|]. split; [rewrite upd_length; auto|]. split.
    - destruct (set_nth_some (contents m (Some h)) i v) as [l' E]; [simpl in *; lia|].
      change (firstn (len h) (skipn (off h) (array m (arr h)))) with (contents m (Some h)). rewrite E. f_equal.
      apply nth_error_ext. intros k. rewrite (set_nth_get _ _ _ _ _ E).
      change (firstn (len h) (skipn (off h) (array (upd m (arr h) (write_at (array m (arr h)) (off h + i) [v])) (arr h))))
        with (contents (upd m (arr h) (write_at (array m (arr h)) (off h + i) [v])) (Some h)).
      rewrite !contents_nth. unfold cell.
      rewrite array_upd, Nat.eqb_refl, write_at_nth by (auto; lia). cbn [length].
      destruct (Nat.eqb_spec k i) as [->|].
      + destruct (Nat.ltb_spec i (len h)); [|lia]. destruct (Nat.ltb_spec (off h + i) (off h + i)); [lia|].
        destruct (Nat.ltb_spec (off h + i) (off h + i + 1)); [|lia]. rewrite Nat.sub_diag. reflexivity.
      + destruct (Nat.ltb_spec k (len h)); auto. destruct (Nat.ltb_spec (off h + k) (off h + i)); auto.
        destruct (Nat.ltb_spec (off h + k) (off h + i + 1)); [lia|auto].
    - rewrite upd_length, array_upd, Nat.eqb_refl, write_at_length by auto. lia.
  Qed.

  Lemma reslice_spec m s lo hi : valid m s -> lo <= hi <= slen s ->
    exists s', reslice s lo hi = Done s' /\ contents m s' = firstn (hi - lo) (skipn lo (contents m s)) /\ valid m s' /\
      slen s' = hi - lo /\ scap s' = scap s - lo /\
      (forall h', s' = Some h' -> exists h, s = Some h /\ arr h' = arr h /\ off h' = off h + lo).
  Proof.
    intros V L. unfold reslice. assert (LC : slen s <= scap s) by (destruct s; simpl in *; lia).
    destruct (Nat.leb_spec lo hi); [|lia]. destruct (Nat.leb_spec hi (scap s)); [|lia]. simpl.
    destruct s as [h|]; (eexists; split; [reflexivity|]).
    - simpl in *. split; [|split; [lia|split; [lia|split; [lia|]]]].
      + rewrite skipn_firstn_comm, firstn_firstn, skipn_skipn. f_equal; lia.
      + intros h' E. inversion E; subst. exists h. auto.
    - simpl in *. assert (hi = 0) by lia. assert (lo = 0) by lia. subst. simpl. repeat split; auto; discriminate.
  Qed.

  Lemma scopy_spec m d s : valid m d -> valid m s -> slen d <= slen s ->
    contents (scopy m d s) d = firstn (slen d) (contents m s) /\ frame (cells_of d) m (scopy m d s) /\ valid (scopy m d s) d.
  Proof.
    intros Vd Vs L. destruct d as [h|]; [|simpl; split; [reflexivity|split; [apply frame_refl|exact I]]].
    pose proof (contents_length m s Vs) as CL.
    unfold scopy. set (vs := firstn (len h) (contents m s)). simpl in L.
    assert (Lv : length vs = len h) by (unfold vs; rewrite firstn_length; lia).
    simpl in Vd. destruct Vd as (V1 & V2 & V3).
    assert (FR : frame (cells_of (Some h)) m (upd m (arr h) (write_at (array m (arr h)) (off h) vs))).
    { apply frame_upd; auto; [lia|]. intros k Hk. simpl. lia. }
    split; [|split; [exact FR|eapply frame_valid; [exact FR|simpl; auto]]].
    apply nth_error_ext. intros k. rewrite contents_nth. unfold cell.
    rewrite array_upd, Nat.eqb_refl, write_at_nth by (auto; lia). cbn [slen]. fold vs.
    destruct (Nat.ltb_spec k (len h)).
    - destruct (Nat.ltb_spec (off h + k) (off h)); [lia|]. destruct (Nat.ltb_spec (off h + k) (off h + length vs)); [|lia].
      f_equal. lia.
    - symmetry. apply nth_error_None. lia.
  Qed.
End Mem.
