From Coq Require Import Permutation Sorting.
From Verif Require Import Base Slice SliceMem SliceMemProofs GoMap Funcs FuncsSpec FuncsProofs.
Open Scope nat_scope.

Lemma hupd_length {A} (h : list A) r x : r < length h -> length (hupd h r x) = length h.
Proof. intros H. unfold hupd. rewrite app_length, firstn_length. cbn [length]. rewrite skipn_length. lia. Qed.

Lemma nth_hupd {A} (h : list A) r x k d : r < length h -> nth k (hupd h r x) d = if k =? r then x else nth k h d.
Proof.
  intros H. unfold hupd. assert (La : length (firstn r h) = r) by (rewrite firstn_length; lia).
  destruct (Nat.eqb_spec k r) as [->|N].
  - rewrite app_nth2 by lia. rewrite La, Nat.sub_diag. reflexivity.
  - destruct (Nat.lt_ge_cases k r).
    + rewrite app_nth1 by lia. rewrite <- (firstn_skipn r h) at 2. rewrite app_nth1 by lia. reflexivity.
    + rewrite app_nth2 by lia. rewrite La. destruct (k - r) as [|j] eqn:D; [lia|]. cbn [nth].
      rewrite <- (firstn_skipn (S r) h) at 2. rewrite app_nth2 by (rewrite firstn_length; lia).
      rewrite firstn_length. f_equal. lia.
Qed.

Lemma mok_nil {K V} : mok (@nil (K * V)).
Proof. constructor. Qed.

(** ** One level *)
Section Hist1.
  Context {K V : Type} {ZV : Zero V} (eqb : K -> K -> bool) (E : eq_decides eqb).

  Definition gget (m : gmap K V) (k : K) : option V := mget eqb (gmap_entries m) k.

  Lemma run_mapop_spec m f o : mok (gmap_entries m) -> (forall k, gget m k = f k) ->
    mok (gmap_entries (run_mapop eqb m o)) /\ (forall k, gget (run_mapop eqb m o) k = spec_mapop eqb f o k).
  Proof.
    intros O H. destruct o as [k v|k]; simpl.
    - split; [unfold map_set; cbn [gmap_entries]; apply mset_ok; auto|]. intros k'. unfold gget, map_set, fset. cbn [gmap_entries].
      change (match m with None => [] | Some e => e end) with (gmap_entries m).
      rewrite mget_set by auto. destruct (eqb k' k); auto. apply H.
    - destruct m as [e|]; simpl in *.
      + split; [apply mdel_ok; auto|]. intros k'. unfold gget, fset. simpl. rewrite mget_del by auto.
        destruct (eqb k' k); auto. apply H.
      + split; auto. intros k'. unfold fset. rewrite <- H. unfold gget. simpl. destruct (eqb k' k); reflexivity.
  Qed.

  Lemma run_mapops_spec ops : forall m f, mok (gmap_entries m) -> (forall k, gget m k = f k) ->
    mok (gmap_entries (fold_left (run_mapop eqb) ops m)) /\
    (forall k, gget (fold_left (run_mapop eqb) ops m) k = fold_left (spec_mapop eqb) ops f k).
  Proof.
    induction ops as [|o ops IH]; intros m f O H; simpl; [auto|].
    destruct (run_mapop_spec m f o O H) as (A & B). apply IH; auto.
  Qed.

  Lemma map_test_gget m k : map_test eqb m k = match gget m k with Some _ => true | None => false end.
  Proof. destruct m; reflexivity. Qed.
  Lemma map_index_gget m k d : map_index eqb m k d = or_default (gget m k) d.
  Proof. destruct m; reflexivity. Qed.
End Hist1.

(** ** Two levels *)
Section Hist2.
  Context {K1 K2 V : Type} (eqb1 : K1 -> K1 -> bool) (eqb2 : K2 -> K2 -> bool) (E1 : eq_decides eqb1) (E2 : eq_decides eqb2).
  Implicit Types (s : st2 K1 K2 V).

  Definition ref_of s k1 := inner_ref eqb1 s k1.
  Definition inv2 s : Prop :=
    mok (gmap_entries (top2 s)) /\
    (forall k1 r, ref_of s k1 = Some r -> r < length (heap2 s) /\ mok (nth r (heap2 s) [])) /\
    (forall k1 k1' r, ref_of s k1 = Some r -> ref_of s k1' = Some r -> k1 = k1').

  Lemma ref_of_entries s k1 : ref_of s k1 = match mget eqb1 (gmap_entries (top2 s)) k1 with Some r => r | None => None end.
  Proof. unfold ref_of, inner_ref. destruct (top2 s); reflexivity. Qed.

  Lemma run_map2op_spec s f o : inv2 s -> (forall k1 k2, map2_read eqb1 eqb2 s k1 k2 = f k1 k2) ->
    inv2 (run_map2op eqb1 eqb2 s o) /\
    (forall k1 k2, map2_read eqb1 eqb2 (run_map2op eqb1 eqb2 s o) k1 k2 = spec_map2op eqb1 eqb2 f o k1 k2).
  Proof.
    intros (O & R & J) H.
    assert (RD : forall s' k1 k2, map2_read eqb1 eqb2 s' k1 k2 = match ref_of s' k1 with Some r => mget eqb2 (nth r (heap2 s') []) k2 | None => None end) by reflexivity.
    destruct o as [k1 k2 v|k1 k2|k1|k1]; cbn [run_map2op spec_map2op].
    - unfold map2_set. fold (ref_of s k1). destruct (ref_of s k1) as [r|] eqn:Rk.
      + destruct (R k1 r Rk) as (Lr & Mr).
        assert (RR : forall k, ref_of (St2 (hupd (heap2 s) r (mset eqb2 (nth r (heap2 s) []) k2 v))
                     (Some match top2 s with None => [] | Some e => e end)) k = ref_of s k).
        { intros k. rewrite !ref_of_entries. reflexivity. }
        split.
        * unfold inv2. split; [exact O|]. split.
          -- intros k r' Hk. rewrite RR in Hk. destruct (R k r' Hk) as (L' & M'). cbn [heap2].
             rewrite hupd_length, nth_hupd by auto. split; auto. destruct (r' =? r) eqn:Q; auto. apply mset_ok; auto.
          -- intros k k' r'. rewrite !RR. apply J.
        * intros a b. rewrite RD, RR. cbn [heap2]. unfold fset. destruct (eqb_spec eqb1 E1 a k1) as [->|N].
          -- rewrite Rk, nth_hupd, Nat.eqb_refl, mget_set by auto. destruct (eqb2 b k2); auto. rewrite <- H, RD, Rk. reflexivity.
          -- rewrite <- H, RD. destruct (ref_of s a) as [r'|] eqn:Ra; auto. rewrite nth_hupd by auto.
             destruct (Nat.eqb_spec r' r) as [->|]; auto. exfalso. apply N. eapply J; eauto.
      + set (top := match top2 s with None => [] | Some e => e end).
        assert (ET : top = gmap_entries (top2 s)) by reflexivity.
        set (s' := St2 (heap2 s ++ [mset eqb2 [] k2 v]) (Some (mset eqb1 top k1 (Some (length (heap2 s)))))).
        assert (RR : forall k, ref_of s' k = if eqb1 k k1 then Some (length (heap2 s)) else ref_of s k).
        { intros k. rewrite !ref_of_entries. cbn [s' top2 gmap_entries]. rewrite mget_set by auto. rewrite ET. destruct (eqb1 k k1); reflexivity. }
        split.
        * split; [cbn [s' top2 gmap_entries]; apply mset_ok; auto|]. split.
          -- intros k r Hk. rewrite RR in Hk. cbn [s' heap2]. rewrite app_length. cbn [length].
             destruct (eqb1 k k1).
             ++ injection Hk as <-. split; [lia|]. rewrite app_nth2, Nat.sub_diag by lia. simpl. apply (mset_ok eqb2 E2 []). apply mok_nil.
             ++ destruct (R k r Hk). split; [lia|]. rewrite app_nth1; auto.
          -- intros k k' r. rewrite !RR. destruct (eqb_spec eqb1 E1 k k1) as [->|N], (eqb_spec eqb1 E1 k' k1) as [->|N']; auto.
             ++ intros A B. injection A as <-. destruct (R _ _ B). lia.
             ++ intros A B. injection B as <-. destruct (R _ _ A). lia.
             ++ apply J.
        * intros a b. rewrite RD, RR. unfold fset. cbn [s' heap2]. destruct (eqb_spec eqb1 E1 a k1) as [->|N].
          -- rewrite app_nth2, Nat.sub_diag by lia. cbn [nth]. rewrite mget_set by auto. destruct (eqb2 b k2); auto.
             rewrite <- H, RD, Rk. reflexivity.
          -- rewrite <- H, RD. destruct (ref_of s a) as [r'|] eqn:Ra; auto. destruct (R _ _ Ra). rewrite app_nth1 by auto. reflexivity.
    - unfold map2_unset. fold (ref_of s k1). destruct (ref_of s k1) as [r|] eqn:Rk.
      + destruct (R k1 r Rk) as (Lr & Mr).
        assert (RR : forall k, ref_of (St2 (hupd (heap2 s) r (mdel eqb2 (nth r (heap2 s) []) k2)) (top2 s)) k = ref_of s k) by reflexivity.
        split.
        * split; [exact O|]. split.
          -- intros k r' Hk. rewrite RR in Hk. destruct (R k r' Hk) as (L' & M'). cbn [heap2].
             rewrite hupd_length, nth_hupd by auto. split; auto. destruct (r' =? r) eqn:Q; auto. apply mdel_ok; auto.
          -- intros k k' r'. rewrite !RR. apply J.
        * intros a b. rewrite RD, RR. cbn [heap2]. unfold fset. destruct (eqb_spec eqb1 E1 a k1) as [->|N].
          -- rewrite Rk, nth_hupd, Nat.eqb_refl, mget_del by auto. destruct (eqb2 b k2); auto. rewrite <- H, RD, Rk. reflexivity.
          -- rewrite <- H, RD. destruct (ref_of s a) as [r'|] eqn:Ra; auto. rewrite nth_hupd by auto.
             destruct (Nat.eqb_spec r' r) as [->|]; auto. exfalso. apply N. eapply J; eauto.
      + split; [split; auto|]. intros a b. unfold fset. rewrite H. destruct (eqb_spec eqb1 E1 a k1) as [->|N]; auto.
        rewrite <- H, RD, Rk. destruct (eqb2 b k2); reflexivity.
    - assert (RR : forall k, ref_of (map2_unset_top eqb1 s k1) k = if eqb1 k k1 then None else ref_of s k).
      { intros k. rewrite !ref_of_entries. unfold map2_unset_top. cbn [top2]. destruct (top2 s) as [e|]; simpl.
        - rewrite mget_del by (auto; exact O). destruct (eqb1 k k1); reflexivity.
        - destruct (eqb1 k k1); reflexivity. }
      split.
      + split; [|split].
        * unfold map2_unset_top. cbn [top2]. destruct (top2 s); simpl; auto. apply mdel_ok; auto.
        * intros k r Hk. rewrite RR in Hk. destruct (eqb1 k k1); [discriminate|]. apply (R k r Hk).
        * intros k k' r. rewrite !RR. destruct (eqb1 k k1); [discriminate|]. destruct (eqb1 k' k1); [discriminate|]. apply J.
      + intros a b. rewrite RD, RR. unfold fset. destruct (eqb1 a k1); auto. rewrite <- H. reflexivity.
    - assert (RR : forall k, ref_of (map2_set_nil eqb1 s k1) k = if eqb1 k k1 then None else ref_of s k).
      { intros k. rewrite !ref_of_entries. unfold map2_set_nil, map_set. cbn [top2 gmap_entries].
        rewrite mget_set by auto. destruct (eqb1 k k1); reflexivity. }
      split.
      + split; [|split].
        * unfold map2_set_nil, map_set. cbn [top2 gmap_entries]. apply mset_ok; auto.
        * intros k r Hk. rewrite RR in Hk. destruct (eqb1 k k1); [discriminate|]. apply (R k r Hk).
        * intros k k' r. rewrite !RR. destruct (eqb1 k k1); [discriminate|]. destruct (eqb1 k' k1); [discriminate|]. apply J.
      + intros a b. rewrite RD, RR. unfold fset. destruct (eqb1 a k1); auto. rewrite <- H. reflexivity.
  Qed.

  Lemma run_map2ops_spec ops : forall s f, inv2 s -> (forall k1 k2, map2_read eqb1 eqb2 s k1 k2 = f k1 k2) ->
    forall k1 k2, map2_read eqb1 eqb2 (fold_left (run_map2op eqb1 eqb2) ops s) k1 k2 = fold_left (spec_map2op eqb1 eqb2) ops f k1 k2.
  Proof.
    induction ops as [|o ops IH]; intros s f I H; simpl; [auto|].
    destruct (run_map2op_spec s f o I H) as (A & B). apply IH; auto.
  Qed.

  Lemma map2_test_read s k1 k2 : map2_test eqb1 eqb2 s k1 k2 = match map2_read eqb1 eqb2 s k1 k2 with Some _ => true | None => false end.
  Proof. unfold map2_test, map2_read. destruct (inner_ref eqb1 s k1); reflexivity. Qed.
End Hist2.

(** ** Maps of slices *)
Section HistS.
  Context {K V : Type} {ZV : Zero V} (eqb : K -> K -> bool) (E : eq_decides eqb) (same : V -> V -> bool) (ex : nat -> nat -> nat).
  Implicit Types (s : sts K V).

  Definition sget_of s k : option slice := mget eqb (gmap_entries (tops s)) k.
  Definition invs s : Prop :=
    mok (gmap_entries (tops s)) /\
    (forall k x, sget_of s k = Some x -> valid (mems s) x) /\
    (forall k k' h h', sget_of s k = Some (Some h) -> sget_of s k' = Some (Some h') -> arr h = arr h' -> k = k').

  Lemma fresh_arr {T} (m : mem T) h : fresh m (Some h) -> length m <= arr h.
  Proof. auto. Qed.

  (** replacing one key's slice by an updated one *)
  Lemma replace_spec s f m' k x' l' top' :
    invs s -> (forall k', map_slice_read eqb s k' = f k') ->
    valid m' x' -> contents m' x' = l' ->
    mok top' -> (forall k', mget eqb top' k' = if eqb k' k then Some x' else sget_of s k') ->
    (forall k' y, k' <> k -> sget_of s k' = Some y -> valid m' y /\ contents m' y = contents (mems s) y) ->
    (forall h', x' = Some h' -> forall k' h, k' <> k -> sget_of s k' = Some (Some h) -> arr h <> arr h') ->
    invs (Sts m' (Some top')) /\
    (forall k', map_slice_read eqb (Sts m' (Some top')) k' = fset eqb f k (Some l') k').
  Proof.
    intros (O & R & J) H VV C O' G U D. split.
    - split; [exact O'|]. split.
      + intros k' y Hy. unfold sget_of in Hy. cbn [tops gmap_entries] in Hy. rewrite G in Hy. cbn [mems].
        destruct (eqb_spec eqb E k' k) as [->|N]; [injection Hy as <-; auto|]. apply (U k' y N Hy).
      + intros a b h h'. unfold sget_of. cbn [tops gmap_entries]. rewrite !G.
        destruct (eqb_spec eqb E a k) as [->|N], (eqb_spec eqb E b k) as [->|N']; auto.
        * intros A B C'. exfalso. injection A as A. eapply (D h A b h' N' B). auto.
        * intros A B C'. exfalso. injection B as B. eapply (D h' B a h N A). auto.
        * apply J.
    - intros k'. unfold map_slice_read, fset. cbn [tops gmap_entries mems]. rewrite G.
      destruct (eqb_spec eqb E k' k) as [->|N]; [rewrite C; reflexivity|]. rewrite <- H. unfold map_slice_read.
      fold (sget_of s k'). destruct (sget_of s k') as [y|] eqn:Y; auto. f_equal. apply (U k' y N Y).
  Qed.

  Lemma run_slcop_spec s f o : invs s -> (forall k, map_slice_read eqb s k = f k) ->
    exists s', run_slcop eqb same ex s o = Done s' /\ invs s' /\
      (forall k, map_slice_read eqb s' k = spec_slcop eqb same f o k).
  Proof.
    intros I H. pose proof I as (O & R & J). destruct o as [k v|k v all|k]; cbn [run_slcop spec_slcop].
    - eexists; split; [reflexivity|]. unfold map_slice_add.
      set (top := match tops s with None => [] | Some e => e end). assert (ET : top = gmap_entries (tops s)) by reflexivity.
      assert (SG : mget eqb top k = sget_of s k) by reflexivity. rewrite SG.
      destruct (match sget_of s k with Some x => x | None => None end) as [h|] eqn:SL.
      + destruct (sget_of s k) as [x|] eqn:SK; [|discriminate]. subst x. pose proof (R _ _ SK) as Vh.
        destruct (sappend ex (mems s) (Some h) [v]) as [m2 s2] eqn:EA.
        destruct (slice_add_spec ex (mems s) (Some h) v m2 s2 Vh EA) as (A1 & A2 & A3 & A4 & A5 & A6).
        rewrite <- (H k). replace (map_slice_read eqb s k) with (Some (contents (mems s) (Some h))).
        2: { unfold map_slice_read. fold (sget_of s k). rewrite SK. reflexivity. }
        eapply replace_spec; eauto.
        * apply mset_ok; auto.
        * intros k'. rewrite mget_set by auto. reflexivity.
        * intros k' y N Y. pose proof (R _ _ Y) as Vy. split; [eapply frame_valid; eauto|].
          eapply frame_contents; eauto. intros a i Ca Sa. destruct y as [hy|]; [|exact Ca]. simpl in Ca, Sa.
          apply N. eapply (J k' k hy h Y SK). lia.
        * intros h' -> k' hy N Y Q. destruct A5 as [F|(h0 & h1 & E0 & E1 & E2 & E3)].
          -- apply fresh_arr in F. pose proof (R _ _ Y) as Vy. simpl in Vy. lia.
          -- injection E0 as <-. injection E1 as <-. apply N. eapply (J k' k hy h Y SK). lia.
      + destruct (smake (mems s) 0 0) as [m1 s1] eqn:EM.
        destruct (sappend ex m1 s1 [v]) as [m2 s2] eqn:EA.
        assert (EA' : slice_add ex (mems s) None v = (m2, s2)) by (unfold slice_add; rewrite EM; exact EA).
        destruct (slice_add_spec ex (mems s) None v m2 s2 Logic.I EA') as (A1 & A2 & A3 & A4 & A5 & A6).
        replace (match f k with Some l => l | None => [] end) with (@nil V).
        2: { rewrite <- (H k). unfold map_slice_read. fold (sget_of s k). destruct (sget_of s k) as [x|]; auto. subst x. reflexivity. }
        eapply replace_spec; eauto.
        * apply mset_ok; auto. apply mset_ok; auto.
        * intros k'. rewrite !mget_set by auto. destruct (eqb k' k); reflexivity.
        * intros k' y N Y. pose proof (R _ _ Y) as Vy. split; [eapply frame_valid; eauto|].
          eapply frame_contents; eauto.
        * intros h' -> k' hy N Y Q. destruct A5 as [F|(h0 & h1 & E0 & _)]; [|discriminate].
          apply fresh_arr in F. pose proof (R _ _ Y) as Vy. simpl in Vy. lia.
    - unfold map_slice_remove. destruct (tops s) as [e|] eqn:ET.
      2: { exists s. split; auto. split; auto. intros k'. unfold fset. rewrite H.
           destruct (eqb_spec eqb E k' k) as [->|]; auto. rewrite <- H. unfold map_slice_read. rewrite ET. reflexivity. }
      assert (SG : mget eqb e k = sget_of s k) by (unfold sget_of; rewrite ET; reflexivity). rewrite SG.
      destruct (sget_of s k) as [x|] eqn:SK.
      2: { exists s. split; auto. split; auto. intros k'. unfold fset. rewrite H.
           destruct (eqb_spec eqb E k' k) as [->|]; auto. rewrite <- H. unfold map_slice_read. fold (sget_of s k). rewrite SK. reflexivity. }
      pose proof (R _ _ SK) as Vx.
      destruct (slice_remove_spec ex (fun t => same t v) (mems s) x all Vx) as (m' & x' & A1 & A2 & A3 & A4 & A5).
      rewrite A1. cbn [obind]. eexists; split; [reflexivity|].
      replace (option_map (rm all (fun t => same t v)) (f k)) with (Some (rm all (fun t => same t v) (contents (mems s) x))).
      2: { rewrite <- (H k). unfold map_slice_read. fold (sget_of s k). rewrite SK. reflexivity. }
      eapply replace_spec; eauto.
      + apply mset_ok; auto; rewrite ET in O; exact O.
      + intros k'. rewrite mget_set by auto. unfold sget_of. rewrite ET. reflexivity.
      + intros k' y N Y. apply (frame_nowhere_unchanged _ _ A3). eapply R; eauto.
      + intros h' -> k' hy N Y Q. destruct A5 as [(F & _)|(F & _)].
        * subst x. apply N. eapply (J k' k hy h' Y SK). auto.
        * apply fresh_arr in F. pose proof (R _ _ Y) as Vy. simpl in Vy. lia.
    - eexists; split; [reflexivity|]. unfold map_slice_unset.
      assert (G : forall k', sget_of (Sts (mems s) (map_unset eqb (tops s) k)) k' = if eqb k' k then None else sget_of s k').
      { intros k'. unfold sget_of. cbn [tops]. destruct (tops s) as [e|]; simpl.
        - rewrite mget_del by (auto; exact O). destruct (eqb k' k); reflexivity.
        - destruct (eqb k' k); reflexivity. }
      split; [split; [|split]|].
      + cbn [tops]. destruct (tops s); simpl; auto. apply mdel_ok; auto.
      + intros k' x. rewrite G. destruct (eqb k' k); [discriminate|]. apply R.
      + intros a b h h'. rewrite !G. destruct (eqb a k); [discriminate|]. destruct (eqb b k); [discriminate|]. apply J.
      + intros k'. unfold map_slice_read. fold (sget_of (Sts (mems s) (map_unset eqb (tops s) k)) k'). rewrite G. unfold fset.
        destruct (eqb k' k); auto. rewrite <- H. reflexivity.
  Qed.

  Lemma run_slcops_spec ops : forall s f, invs s -> (forall k, map_slice_read eqb s k = f k) ->
    exists s', run_slcops eqb same ex s ops = Done s' /\ forall k, map_slice_read eqb s' k = fold_left (spec_slcop eqb same) ops f k.
  Proof.
    induction ops as [|o ops IH]; intros s f I H; simpl; [eauto|].
    destruct (run_slcop_spec s f o I H) as (s' & -> & I' & H'). cbn [obind]. apply IH; auto.
  Qed.
End HistS.

(** ** Two level maps of slices *)
Section HistS2.
  Context {K1 K2 V : Type} {ZV : Zero V} (eqb1 : K1 -> K1 -> bool) (eqb2 : K2 -> K2 -> bool).
  Context (E1 : eq_decides eqb1) (E2 : eq_decides eqb2) (same : V -> V -> bool) (ex : nat -> nat -> nat).
  Implicit Types (s : st3 K1 K2 V).

  Definition ref3 s k1 := inner_ref3 eqb1 s k1.
  Definition look3 s k1 k2 : option slice :=
    match ref3 s k1 with Some r => mget eqb2 (nth r (heap3 s) []) k2 | None => None end.
  Definition inv3 s : Prop :=
    mok (gmap_entries (top3 s)) /\
    (forall k1 r, ref3 s k1 = Some r -> r < length (heap3 s) /\ mok (nth r (heap3 s) [])) /\
    (forall k1 k1' r, ref3 s k1 = Some r -> ref3 s k1' = Some r -> k1 = k1') /\
    (forall k1 k2 x, look3 s k1 k2 = Some x -> valid (mem3 s) x) /\
    (forall k1 k2 k1' k2' h h', look3 s k1 k2 = Some (Some h) -> look3 s k1' k2' = Some (Some h') -> arr h = arr h' ->
       k1 = k1' /\ k2 = k2').

  Lemma read_look s k1 k2 : map2_slice_read eqb1 eqb2 s k1 k2 = option_map (contents (mem3 s)) (look3 s k1 k2).
  Proof.
    unfold map2_slice_read, look3. fold (ref3 s k1). destruct (ref3 s k1); reflexivity.
  Qed.

  (** the part of the invariant about references, and how lookups change *)
  Lemma finish3 s f s' k1 k2 x' l' :
    inv3 s -> (forall a b, map2_slice_read eqb1 eqb2 s a b = f a b) ->
    mok (gmap_entries (top3 s')) ->
    (forall k r, ref3 s' k = Some r -> r < length (heap3 s') /\ mok (nth r (heap3 s') [])) ->
    (forall k k' r, ref3 s' k = Some r -> ref3 s' k' = Some r -> k = k') ->
    (forall a b, look3 s' a b = if eqb1 a k1 && eqb2 b k2 then Some x' else look3 s a b) ->
    valid (mem3 s') x' -> contents (mem3 s') x' = l' ->
    (forall a b y, ~ (a = k1 /\ b = k2) -> look3 s a b = Some y -> valid (mem3 s') y /\ contents (mem3 s') y = contents (mem3 s) y) ->
    (forall h', x' = Some h' -> forall a b h, ~ (a = k1 /\ b = k2) -> look3 s a b = Some (Some h) -> arr h <> arr h') ->
    inv3 s' /\ (forall a b, map2_slice_read eqb1 eqb2 s' a b = fset eqb1 f k1 (fset eqb2 (f k1) k2 (Some l')) a b).
  Proof.
    intros (O & R & J & W & D) H O' R' J' L VV C U A. split.
    - split; [exact O'|]. split; [exact R'|]. split; [exact J'|]. split.
      + intros a b y. rewrite L. destruct (eqb_spec eqb1 E1 a k1) as [->|N], (eqb_spec eqb2 E2 b k2) as [->|N']; simpl; intros Y;
          try (injection Y as <-; auto; fail); (refine (proj1 (U _ _ _ _ Y)); intros [? ?]; congruence).
      + intros a b a' b' h h'. rewrite !L.
        destruct (eqb_spec eqb1 E1 a k1) as [->|Na], (eqb_spec eqb2 E2 b k2) as [->|Nb];
        destruct (eqb_spec eqb1 E1 a' k1) as [->|Na'], (eqb_spec eqb2 E2 b' k2) as [->|Nb']; simpl; auto; intros X Y Q;
        try (eapply D; eauto; fail);
        try (exfalso; injection X as X; eapply (A _ X); [|exact Y|auto]; intros [? ?]; congruence);
        try (exfalso; injection Y as Y; eapply (A _ Y); [|exact X|auto]; intros [? ?]; congruence).
    - intros a b. rewrite read_look, L. unfold fset.
      destruct (eqb_spec eqb1 E1 a k1) as [->|Na], (eqb_spec eqb2 E2 b k2) as [->|Nb]; simpl; try (rewrite C; reflexivity);
        rewrite <- H, read_look; (destruct (look3 s _ _) as [y|] eqn:Y; [|reflexivity]); simpl; f_equal;
        (refine (proj2 (U _ _ _ _ Y)); intros [? ?]; congruence).
  Qed.

  Lemma ref3_entries s k1 : ref3 s k1 = match mget eqb1 (gmap_entries (top3 s)) k1 with Some r => r | None => None end.
  Proof. unfold ref3, inner_ref3. destruct (top3 s); reflexivity. Qed.

  (** a state whose reference for k1 exists (after the first two steps of Map2SliceAdd) *)
  Lemma ensure_ref s k1 : inv3 s ->
    let '(heap1, top1, r) := match inner_ref3 eqb1 s k1 with
                             | Some r => (heap3 s, gmap_entries (top3 s), r)
                             | None => (heap3 s ++ [[]], mset eqb1 (gmap_entries (top3 s)) k1 (Some (length (heap3 s))), length (heap3 s))
                             end in
    let s1 := St3 (mem3 s) heap1 (Some top1) in
    inv3 s1 /\ ref3 s1 k1 = Some r /\ (forall a b, look3 s1 a b = look3 s a b).
  Proof.
    intros I. pose proof I as (O & R & J & W & D). fold (ref3 s k1). destruct (ref3 s k1) as [r|] eqn:Rk.
    - assert (RR : forall k, ref3 (St3 (mem3 s) (heap3 s) (Some (gmap_entries (top3 s)))) k = ref3 s k).
      { intros k. rewrite !ref3_entries. reflexivity. }
      assert (LL : forall a b, look3 (St3 (mem3 s) (heap3 s) (Some (gmap_entries (top3 s)))) a b = look3 s a b).
      { intros a b. unfold look3. rewrite RR. reflexivity. }
      split; [|split; [rewrite RR; auto|exact LL]].
      split; [exact O|]. split; [intros k r'; rewrite RR; apply R|]. split; [intros k k' r'; rewrite !RR; apply J|].
      split; [intros a b y; rewrite LL; apply W|]. intros a b a' b' h h'. rewrite !LL. apply D.
    - set (s1 := St3 (mem3 s) (heap3 s ++ [[]]) (Some (mset eqb1 (gmap_entries (top3 s)) k1 (Some (length (heap3 s)))))).
      assert (RR : forall k, ref3 s1 k = if eqb1 k k1 then Some (length (heap3 s)) else ref3 s k).
      { intros k. rewrite !ref3_entries. cbn [s1 top3 gmap_entries]. rewrite mget_set by auto. destruct (eqb1 k k1); reflexivity. }
      assert (LL : forall a b, look3 s1 a b = look3 s a b).
      { intros a b. unfold look3. rewrite RR. cbn [s1 heap3]. destruct (eqb_spec eqb1 E1 a k1) as [->|N].
        - rewrite Rk. rewrite app_nth2, Nat.sub_diag by lia. reflexivity.
        - destruct (ref3 s a) as [r'|] eqn:Ra; auto. destruct (R _ _ Ra). rewrite app_nth1 by auto. reflexivity. }
      split; [|split; [rewrite RR, (eqb_refl eqb1 E1); auto|exact LL]].
      split; [cbn [s1 top3 gmap_entries]; apply mset_ok; auto|]. split; [|split; [|split]].
      + intros k r Hk. rewrite RR in Hk. cbn [s1 heap3]. rewrite app_length. cbn [length]. destruct (eqb1 k k1).
        * injection Hk as <-. split; [lia|]. rewrite app_nth2, Nat.sub_diag by lia. apply mok_nil.
        * destruct (R k r Hk). split; [lia|]. rewrite app_nth1; auto.
      + intros k k' r. rewrite !RR. destruct (eqb_spec eqb1 E1 k k1) as [->|N], (eqb_spec eqb1 E1 k' k1) as [->|N']; auto.
        * intros A B. injection A as <-. destruct (R _ _ B). lia.
        * intros A B. injection B as <-. destruct (R _ _ A). lia.
        * apply J.
      + intros a b y. rewrite LL. apply W.
      + intros a b a' b' h h'. rewrite !LL. apply D.
  Qed.

  Lemma look3_set s k1 k2 r m' x : ref3 s k1 = Some r -> inv3 s ->
    let s' := St3 m' (hupd (heap3 s) r (mset eqb2 (nth r (heap3 s) []) k2 x)) (top3 s) in
    (forall a b, look3 s' a b = if eqb1 a k1 && eqb2 b k2 then Some x else look3 s a b) /\
    mok (gmap_entries (top3 s')) /\
    (forall k q, ref3 s' k = Some q -> q < length (heap3 s') /\ mok (nth q (heap3 s') [])) /\
    (forall k k' q, ref3 s' k = Some q -> ref3 s' k' = Some q -> k = k').
  Proof.
    intros Rk (O & R & J & W & D) s'. destruct (R _ _ Rk) as (Lr & Mr).
    assert (RR : forall k, ref3 s' k = ref3 s k) by reflexivity.
    split; [|split; [exact O|split]].
    - intros a b. unfold look3. rewrite RR. cbn [s' heap3]. destruct (eqb_spec eqb1 E1 a k1) as [->|N]; simpl.
      + rewrite Rk, nth_hupd, Nat.eqb_refl, mget_set by auto. destruct (eqb2 b k2); reflexivity.
      + destruct (ref3 s a) as [r'|] eqn:Ra; auto. rewrite nth_hupd by auto.
        destruct (Nat.eqb_spec r' r) as [->|]; auto. exfalso. apply N. eapply J; eauto.
    - intros k q Hq. rewrite RR in Hq. destruct (R _ _ Hq) as (L & M). cbn [s' heap3]. rewrite hupd_length, nth_hupd by auto.
      split; auto. destruct (q =? r); auto. apply mset_ok; auto.
    - intros k k' q. rewrite !RR. apply J.
  Qed.

  Lemma hupd_hupd {A} (h : list A) r x y : r < length h -> hupd (hupd h r x) r y = hupd h r y.
  Proof.
    intros H. unfold hupd. assert (La : length (firstn r h) = r) by (rewrite firstn_length; lia).
    f_equal.
    - rewrite firstn_app, La, Nat.sub_diag, firstn_O, app_nil_r, firstn_firstn. f_equal. lia.
    - f_equal. rewrite skipn_app, La. replace (S r - r) with 1 by lia. rewrite skipn_all2 by lia. reflexivity.
  Qed.

  Lemma mset_mset {A} (m : list (K2 * A)) k x y : mset eqb2 (mset eqb2 m k x) k y = mset eqb2 m k y.
  Proof.
    induction m as [|[a b] m IH]; simpl; [rewrite (eqb_refl eqb2 E2); reflexivity|].
    destruct (eqb2 k a) eqn:Q; simpl; rewrite Q; [reflexivity|]. f_equal. exact IH.
  Qed.

  Lemma run_slc2op_spec s f o : inv3 s -> (forall a b, map2_slice_read eqb1 eqb2 s a b = f a b) ->
    exists s', run_slc2op eqb1 eqb2 same ex s o = Done s' /\ inv3 s' /\
      (forall a b, map2_slice_read eqb1 eqb2 s' a b = spec_slc2op eqb1 eqb2 same f o a b).
  Proof.
    intros I H. destruct o as [k1 k2 v|k1 k2 v all]; cbn [run_slc2op spec_slc2op].
    - eexists; split; [reflexivity|]. unfold map2_slice_add.
      change (match top3 s with None => [] | Some e => e end) with (gmap_entries (top3 s)).
      pose proof (ensure_ref s k1 I) as ER.
      destruct (match inner_ref3 eqb1 s k1 with
                | Some r => (heap3 s, gmap_entries (top3 s), r)
                | None => (heap3 s ++ [[]], mset eqb1 (gmap_entries (top3 s)) k1 (Some (length (heap3 s))), length (heap3 s))
                end) as [[heap1 top1] r].
      set (s1 := St3 (mem3 s) heap1 (Some top1)) in ER. destruct ER as (I1 & R1 & L1).
      assert (H1 : forall a b, map2_slice_read eqb1 eqb2 s1 a b = f a b).
      { intros a b. rewrite read_look, L1. rewrite <- H, read_look. reflexivity. }
      pose proof I1 as (O & R & J & W & D).
      assert (Lr : r < length heap1) by (apply (R _ _ R1)).
      assert (LK : mget eqb2 (nth r heap1 []) k2 = look3 s1 k1 k2) by (unfold look3; rewrite R1; reflexivity).
      rewrite LK.
      destruct (match look3 s1 k1 k2 with Some x => x | None => None end) as [h|] eqn:SL.
      + destruct (look3 s1 k1 k2) as [x|] eqn:SK; [|discriminate]. subst x. pose proof (W _ _ _ SK) as Vh. cbn [s1 mem3] in Vh.
        destruct (sappend ex (mem3 s) (Some h) [v]) as [m2 s2] eqn:EA.
        destruct (slice_add_spec ex (mem3 s) (Some h) v m2 s2 Vh EA) as (A1 & A2 & A3 & A4 & A5 & A6).
        rewrite <- (H1 k1 k2), read_look, SK. cbn [option_map].
        destruct (look3_set s1 k1 k2 r m2 s2 R1 I1) as (B1 & B2 & B3 & B4). cbn [s1 heap3 top3] in B1, B2, B3, B4.
        eapply finish3 with (s := s1); eauto.
        * intros a b y N Y. pose proof (W _ _ _ Y) as Vy. split; [eapply frame_valid; eauto|].
          eapply frame_contents; eauto. intros a' i Ca Sa. destruct y as [hy|]; [|exact Ca]. simpl in Ca, Sa.
          apply N. eapply (D a b k1 k2 hy h Y SK). lia.
        * intros h' -> a b hy N Y Q. destruct A5 as [F|(h0 & h1 & E0 & E1' & E2' & E3)].
          -- apply fresh_arr in F. pose proof (W _ _ _ Y) as Vy. simpl in Vy. lia.
          -- injection E0 as <-. injection E1' as <-. apply N. eapply (D a b k1 k2 hy h Y SK). lia.
      + destruct (smake (mem3 s) 0 0) as [m1 s0] eqn:EM.
        destruct (sappend ex m1 s0 [v]) as [m2 s2] eqn:EA.
        assert (EA' : slice_add ex (mem3 s) None v = (m2, s2)) by (unfold slice_add; rewrite EM; exact EA).
        destruct (slice_add_spec ex (mem3 s) None v m2 s2 Logic.I EA') as (A1 & A2 & A3 & A4 & A5 & A6).
        replace (match f k1 k2 with Some l => l | None => [] end) with (@nil V).
        2: { rewrite <- (H1 k1 k2), read_look. destruct (look3 s1 k1 k2) as [x|]; auto. subst x. reflexivity. }
        rewrite nth_hupd, Nat.eqb_refl, hupd_hupd, mset_mset by auto.
        destruct (look3_set s1 k1 k2 r m2 s2 R1 I1) as (B1 & B2 & B3 & B4). cbn [s1 heap3 top3] in B1, B2, B3, B4.
        eapply finish3 with (s := s1); eauto.
        * intros a b y N Y. pose proof (W _ _ _ Y) as Vy. split; [eapply frame_valid; eauto|].
          eapply frame_contents; eauto.
        * intros h' -> a b hy N Y Q. destruct A5 as [F|(h0 & h1 & E0 & _)]; [|discriminate].
          apply fresh_arr in F. pose proof (W _ _ _ Y) as Vy. simpl in Vy. lia.
    - unfold map2_slice_remove. fold (ref3 s k1). pose proof I as (O & R & J & W & D).
      assert (NONE : look3 s k1 k2 = None -> exists s', Done s = Done s' /\ inv3 s' /\
        (forall a b, map2_slice_read eqb1 eqb2 s' a b =
                     fset eqb1 f k1 (fset eqb2 (f k1) k2 (option_map (rm all (fun t => same t v)) (f k1 k2))) a b)).
      { intros LN. exists s. split; auto. split; auto. intros a b. unfold fset. rewrite H.
        destruct (eqb_spec eqb1 E1 a k1) as [->|]; auto. destruct (eqb_spec eqb2 E2 b k2) as [->|]; auto.
        rewrite <- H, read_look, LN. reflexivity. }
      destruct (ref3 s k1) as [r|] eqn:Rk.
      2: { apply NONE. unfold look3. rewrite Rk. reflexivity. }
      assert (LK : mget eqb2 (nth r (heap3 s) []) k2 = look3 s k1 k2) by (unfold look3; rewrite Rk; reflexivity). rewrite LK.
      destruct (look3 s k1 k2) as [x|] eqn:SK; [|apply NONE; auto]. clear NONE.
      pose proof (W _ _ _ SK) as Vx.
      destruct (slice_remove_spec ex (fun t => same t v) (mem3 s) x all Vx) as (m' & x' & A1 & A2 & A3 & A4 & A5).
      rewrite A1. cbn [obind]. eexists; split; [reflexivity|].
      rewrite <- (H k1 k2), read_look, SK. cbn [option_map].
      destruct (look3_set s k1 k2 r m' x' Rk I) as (B1 & B2 & B3 & B4).
      eapply finish3 with (s := s); eauto.
      + intros a b y N Y. apply (frame_nowhere_unchanged _ _ A3). eapply W; eauto.
      + intros h' -> a b hy N Y Q. destruct A5 as [(F & _)|(F & _)].
        * subst x. apply N. eapply (D a b k1 k2 hy h' Y SK). auto.
        * apply fresh_arr in F. pose proof (W _ _ _ Y) as Vy. simpl in Vy. lia.
  Qed.

  Lemma run_slc2ops_spec ops : forall s f, inv3 s -> (forall a b, map2_slice_read eqb1 eqb2 s a b = f a b) ->
    exists s', run_slc2ops eqb1 eqb2 same ex s ops = Done s' /\
      forall a b, map2_slice_read eqb1 eqb2 s' a b = fold_left (spec_slc2op eqb1 eqb2 same) ops f a b.
  Proof.
    induction ops as [|o ops IH]; intros s f I H; simpl; [eauto|].
    destruct (run_slc2op_spec s f o I H) as (s' & -> & I' & H'). cbn [obind]. apply IH; auto.
  Qed.
End HistS2.
