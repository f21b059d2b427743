(** ReduceIntoSlice and OfSliceWriter on the memory the source iterates over. *)
From Verif Require Import Base Iter IterGen IterSpec IterProofs IterGenProofs Stream StreamSpec StreamProofs Pipe PipeSpec PipeProofs Slice SliceMem SliceMemProofs MemIter MemIterSpec MemIterProofs.
Open Scope go_scope.
Open Scope nat_scope.

(** ** Element-wise pipelines are no faster than their source *)
Lemma filter_demand_ge {A C} (p : C -> A -> bool * C) : forall l c k, k <= length (fst (filter_acc p c l)) -> k <= filter_demand p c l k <= length l.
Proof.
  induction l as [|x l IH]; intros c k H; cbn [filter_acc filter_demand] in *.
  - cbn in H. destruct k; cbn; lia.
  - destruct k as [|k]; [cbn; lia|]. destruct (p c x) as [b c'] eqn:E. cbn [fst snd] in *.
    destruct (filter_acc p c' l) as [r c2] eqn:ER. destruct b; cbn [fst length] in *.
    + specialize (IH c' k). rewrite ER in IH. cbn [fst] in IH. lia.
    + specialize (IH c' (S k)). rewrite ER in IH. cbn [fst] in IH. lia.
Qed.
Lemma map_acc_length {A B C} (f : C -> A -> B * C) : forall l c, length (fst (map_acc f c l)) = length l.
Proof. induction l as [|x l IH]; intros c; cbn; auto. destruct (f c x) as [y c']. specialize (IH c'). destruct (map_acc f c' l). cbn in *. lia. Qed.
Lemma cut_errors_length {T} (rs : list (ret T)) o : length (fst (cut_errors rs o)) <= length rs.
Proof. induction rs as [|[v [e|]] rs IH]; cbn; lia. Qed.

Lemma stage_no_faster {A B} (g : stage A B) tr k : element_stage g -> k <= length (fst (stage_meaning g tr)) -> k <= stage_demand g tr k <= length (fst tr).
Proof.
  destruct tr as [l o]. destruct g; cbn [element_stage]; try tauto; intros _; cbn [stage_meaning stage_demand fst snd].
  - rewrite map_acc_length. lia.
  - intros H. pose proof (cut_errors_length (fst (map_acc f c0 l)) o). rewrite map_acc_length in *. lia.
  - apply filter_demand_ge.
  - lia.
  - rewrite skipn_length. destruct k; lia.
  - destruct (Nat.leb_spec n (length l)); cbn [fst]; [rewrite firstn_length|]; lia.
Qed.
Lemma pipe_no_faster {A B} (p : pipe A B) : element_wise p -> forall tr k, k <= length (fst (meaning p tr)) -> k <= demand p tr k <= length (fst tr).
Proof.
  induction p as [A|A B C g p IH]; intros E tr k H; cbn [meaning demand element_wise] in *; [lia|]. destruct E as [EG EP].
  pose proof (IH EP _ _ H) as H1. pose proof (stage_no_faster g tr (demand p (stage_meaning g tr) k) EG ltac:(lia)). lia.
Qed.
Lemma expand_demand_ge {A} : forall (l : list (list A)) k, 1 <= k <= length (concat l) -> 1 <= expand_demand l k <= length l.
Proof.
  induction l as [|x l IH]; intros k H; cbn [concat length expand_demand] in *; [lia|]. rewrite app_length in H. destruct k as [|k]; [lia|].
  destruct (Nat.leb_spec (S k) (length x)); [lia|]. specialize (IH (S k - length x) ltac:(lia)). lia.
Qed.
Lemma expands_demand {A B} (p : pipe A B) : steps_or_expands p -> forall tr k, 1 <= k <= length (fst (meaning p tr)) -> 1 <= demand p tr k <= length (fst tr).
Proof.
  induction p as [A|A B C g p IH]; intros E tr k H; cbn [meaning demand steps_or_expands] in *; [lia|]. destruct E as [EG EP].
  pose proof (IH EP _ _ H) as H1. destruct EG as [EG|EG].
  - pose proof (stage_no_faster g tr (demand p (stage_meaning g tr) k) EG ltac:(lia)). lia.
  - destruct g; try contradiction; cbn [stage_demand stage_meaning fst] in *; apply expand_demand_ge; exact H1.
Qed.
Lemma filter_demand_all {A C} (p : C -> A -> bool * C) : forall l c k, length (fst (filter_acc p c l)) < k -> filter_demand p c l k = S (length l).
Proof.
  induction l as [|x l IH]; intros c k H; cbn [filter_acc filter_demand] in *; destruct k as [|k]; try (cbn in H; lia); [reflexivity|].
  destruct (p c x) as [b c'] eqn:E. cbn [fst snd] in *. destruct (filter_acc p c' l) as [r c2] eqn:ER. cbn [length]. f_equal.
  destruct b; cbn [fst length] in *; apply IH; rewrite ER; cbn [fst]; lia.
Qed.
Lemma passing_demand {A B} (g : stage A B) tr k : passing_stage g -> length (fst (stage_meaning g tr)) < k -> length (fst tr) < stage_demand g tr k.
Proof.
  destruct tr as [l o]. destruct g; cbn [passing_stage]; try tauto; intros _; cbn [stage_meaning stage_demand fst snd].
  - rewrite map_acc_length. lia.
  - intros H. rewrite filter_demand_all; auto.
  - rewrite skipn_length. destruct k; lia.
Qed.
Lemma collects_demand {A B} (p : pipe A B) : collects p -> forall tr k, 1 <= k <= length (fst (meaning p tr)) -> length (fst tr) < demand p tr k.
Proof.
  induction p as [A|A B C g p IH]; intros E tr k H; cbn [meaning demand collects] in *; [contradiction|]. destruct E as [[EG EP]|[EG EP]].
  - apply passing_demand; auto.
  - pose proof (expands_demand p EP _ k H) as D. destruct g; try contradiction; cbn [stage_demand stage_meaning] in *; destruct (demand _ _ k); lia.
Qed.
Theorem in_step_no_faster {T U} (p : pipe T U) (l : list T) : in_step p -> no_faster p l.
Proof.
  intros [E|E] k H.
  - pose proof (pipe_no_faster p E _ _ H). cbn [fst] in *. lia.
  - destruct k as [|k]; [cbn; lia|]. pose proof (collects_demand p E (l, Some EOI) (S k) ltac:(split; [lia|exact H])) as D. cbn [fst] in *. lia.
Qed.

(** ** A memory that changes between the calls *)
Lemma mem_slice_from {T} {ZT : Zero T} (env : nat -> @mem T) slc : forall vs pre, seen_at env slc (pre ++ vs) -> (forall c, valid (env c) slc) ->
  emits (mem_slice_gen env slc) (length pre, length pre) vs (length (pre ++ vs), length (pre ++ vs)).
Proof.
  induction vs as [|v vs IH]; intros pre [L SV] V.
  - rewrite app_nil_r. constructor.
  - econstructor.
    + exists 0. intros fuel _. unfold mem_slice_gen. rewrite app_length in L. cbn [length] in L. destruct (Nat.ltb_spec (length pre) (slen slc)); [|lia].
      unfold sget. rewrite (SV (length pre) v) by (rewrite nth_error_app2, Nat.sub_diag by lia; reflexivity). reflexivity.
    + replace (pre ++ v :: vs) with ((pre ++ [v]) ++ vs) by (rewrite <- app_assoc; reflexivity).
      replace (length pre + 1) with (length (pre ++ [v])) by (rewrite app_length; reflexivity). apply IH; auto.
      rewrite <- app_assoc. split; auto.
Qed.
Theorem mem_slice_gives {T} {ZT : Zero T} (env : nat -> @mem T) slc vs : (forall c, valid (env c) slc) -> seen_at env slc vs ->
  gives (mem_slice_gen env slc) (0, 0) (vs, Some EOI).
Proof.
  intros V SV. exists (length vs, length vs). split; [exact (mem_slice_from env slc vs [] SV V)|]. intros e H. injection H as <-.
  exists (length vs, length vs + 1), zv, 0. intros fuel _. unfold mem_slice_gen. destruct SV as [L _]. rewrite L, Nat.ltb_irrefl. reflexivity.
Qed.
Lemma seen_exists {T} {ZT : Zero T} (env : nat -> @mem T) slc : (forall c, valid (env c) slc) -> exists vs, seen_at env slc vs.
Proof.
  intros V. exists (map (fun k => nth k (contents (env k) slc) zv) (seq 0 (slen slc))). split; [rewrite map_length, seq_length; reflexivity|].
  intros k v H. assert (Hk : k < slen slc) by (rewrite <- (seq_length (slen slc) 0), <- (map_length (fun k => nth k (contents (env k) slc) zv)); apply nth_error_Some; congruence).
  rewrite nth_error_map in H. destruct (nth_error (seq 0 (slen slc)) k) as [j|] eqn:E; [|discriminate]. cbn in H. injection H as <-.
  assert (j = k) by (apply (nth_error_nth _ _ 0) in E; rewrite seq_nth in E by lia; lia). subst j.
  apply nth_error_nth'. rewrite contents_length by auto. exact Hk.
Qed.
Lemma seen_unique {T} {ZT : Zero T} (env : nat -> @mem T) slc vs ws : (forall c, valid (env c) slc) -> seen_at env slc vs -> seen_at env slc ws -> vs = ws.
Proof.
  intros V [L1 S1] [L2 S2]. apply nth_error_ext. intros k. destruct (nth_error vs k) as [v|] eqn:E1.
  - destruct (nth_error ws k) as [w|] eqn:E2; [rewrite <- (S1 _ _ E1), <- (S2 _ _ E2); reflexivity|]. apply nth_error_None in E2. assert (k < length vs) by (apply nth_error_Some; congruence). lia.
  - apply nth_error_None in E1. symmetry. apply nth_error_None. lia.
Qed.

(** ** ReduceIntoSlice *)
Section Into.
  Context {T : Type} {ZT : Zero T}.

  Definition in_first (s : slice) (k a j : nat) : bool :=
    match s with None => false | Some h => (a =? arr h) && (off h <=? j) && (j <? off h + k) end.
  Definition written (m0 m : @mem T) (into : slice) (out : list T) (k : nat) : Prop :=
    length m = length m0 /\ (forall a, length (array m a) = length (array m0 a)) /\
    forall a j, cell m a j = if in_first into k a j then nth_error out (j - match into with Some h => off h | None => 0 end) else cell m0 a j.

  Lemma written_valid m0 m into out k s : written m0 m into out k -> valid m0 s -> valid m s.
  Proof. intros (L & LA & _). destruct s as [h|]; auto. cbn. rewrite L, LA. auto. Qed.

  Lemma sset_done (m : @mem T) h i (v : T) : valid m (Some h) -> i < len h -> exists m', sset m (Some h) i v = Done m' /\ length m' = length m /\
    (forall a, length (array m' a) = length (array m a)) /\
    forall a j, cell m' a j = if (a =? arr h) && (j =? off h + i) then Some v else cell m a j.
  Proof.
    intros (V1 & V2 & V3) Hi. cbn [sset]. destruct (Nat.ltb_spec i (len h)); [|lia]. eexists. split; [reflexivity|].
    assert (FIT : off h + i + length [v] <= length (array m (arr h))) by (cbn [length]; lia).
    split; [apply upd_length; auto|]. split.
    - intros a. rewrite array_upd by auto. destruct (Nat.eqb_spec a (arr h)) as [->|]; auto. rewrite write_at_length; auto.
    - intros a j. unfold cell at 1. rewrite array_upd by auto. destruct (Nat.eqb_spec a (arr h)) as [->|]; cbn [andb]; [|reflexivity].
      rewrite write_at_nth by auto. cbn [length]. destruct (Nat.ltb_spec j (off h + i)); destruct (Nat.eqb_spec j (off h + i)); try lia; auto.
      + destruct (Nat.ltb_spec j (off h + i + 1)); [|lia]. subst j. rewrite Nat.sub_diag. reflexivity.
      + destruct (Nat.ltb_spec j (off h + i + 1)); [lia|]. reflexivity.
  Qed.

  Variable p : pipe T T.
  Variables (from into : slice) (m0 : @mem T).
  Hypothesis VF : valid m0 from.
  Hypothesis VI : valid m0 into.
  Hypothesis AB : apart_or_before into from.
  Let l := contents m0 from.
  Let tr : trace T := (l, Some EOI).
  Let out := fst (meaning p tr).
  Hypothesis NF : no_faster p l.

  Let I (k : nat) (m : @mem T) (i : nat) := i = k /\ written m0 m into out k.

  Lemma into_read k m i : k <= length out -> I k m i ->
    length (contents m from) = length l /\ forall j, Nat.min (demand p tr k) (length l) <= j -> nth_error (contents m from) j = nth_error l j.
  Proof.
    intros Hk (-> & W). pose proof (written_valid _ _ _ _ _ from W VF) as V. unfold l. rewrite !contents_length by auto. split; auto.
    intros j Hj. pose proof (NF k Hk) as D. fold tr in D. pose proof (contents_length m0 from VF) as CL. fold l in CL. rewrite CL in D. revert D Hj. generalize (demand p tr k). intros d D Hj. clear CL. destruct from as [h|]; [|reflexivity]. rewrite !contents_nth.
    destruct (Nat.ltb_spec j (len h)); auto. cbn [slen] in Hj.
    destruct W as (_ & _ & WC). rewrite WC. unfold in_first, apart_or_before in *. destruct into as [g|]; auto.
    destruct (Nat.eqb_spec (arr h) (arr g)) as [E|]; cbn [andb]; auto. destruct AB as [X|X]; [congruence|].
    destruct (Nat.leb_spec (off g) (off h + j)); cbn [andb]; auto. destruct (Nat.ltb_spec (off h + j) (off g + k)); auto. cbn [slen] in D. lia.
  Qed.

  Lemma into_store n : n <= length out -> n <= slen into -> forall k m i v, k < n -> nth_error out k = Some v -> I k m i ->
    exists m' i', store_index into m i v = Done (m', i') /\ I (S k) m' i'.
  Proof.
    intros Hn Hs k m i v Hk EV (-> & W). pose proof (written_valid _ _ _ _ _ into W VI) as V. unfold I. destruct into as [h|]; [|cbn in Hs; lia]. cbn [slen] in Hs.
    destruct (sset_done m h k v V ltac:(lia)) as (m' & E & L & LA & C). unfold store_index. rewrite E. cbn [obind]. exists m', (k + 1). split; auto.
    destruct W as (WL & WA & WC). split; [lia|]. split; [lia|]. split; [intros a; rewrite LA; apply WA|].
    intros a j. rewrite C, WC. unfold in_first. destruct (Nat.eqb_spec a (arr h)); cbn [andb]; auto.
    destruct (Nat.eqb_spec j (off h + k)) as [->|N].
    - destruct (Nat.leb_spec (off h) (off h + k)); [|lia]. destruct (Nat.ltb_spec (off h + k) (off h + S k)); [|lia]. cbn [andb]. replace (off h + k - off h) with k by lia. auto.
    - destruct (Nat.leb_spec (off h) j); cbn [andb]; auto. destruct (Nat.ltb_spec j (off h + k)), (Nat.ltb_spec j (off h + S k)); auto; lia.
  Qed.

  Lemma into_start : I 0 m0 0.
  Proof.
    split; auto. split; auto. split; auto. intros a j. unfold in_first. destruct into as [h|]; auto.
    destruct (Nat.leb_spec (off h) j), (Nat.ltb_spec j (off h + 0)); try lia; rewrite ?andb_false_r; auto.
  Qed.

  Lemma written_contents m n : n = length out -> n <= slen into -> written m0 m into out n -> contents m into = out ++ skipn n (contents m0 into).
  Proof.
    intros -> Hs (_ & _ & W). apply nth_error_ext. intros k. destruct into as [h|]; cbn [slen] in Hs.
    - rewrite contents_nth, W. unfold in_first. rewrite Nat.eqb_refl. cbn [andb]. destruct (Nat.leb_spec (off h) (off h + k)); [|lia]. cbn [andb].
      destruct (Nat.ltb_spec (off h + k) (off h + length out)).
      + rewrite nth_error_app1 by lia. destruct (Nat.ltb_spec k (len h)); [|lia]. f_equal. lia.
      + rewrite nth_error_app2 by lia. rewrite nth_error_skipn', contents_nth. replace (length out + (k - length out)) with k by lia. reflexivity.
    - destruct out; [|cbn in Hs; lia]. cbn. destruct k; reflexivity.
  Qed.
  Lemma written_frame m n : n <= slen into -> written m0 m into out n -> frame (cells_of into) m0 m.
  Proof.
    intros Hn (L & LA & W). split; [lia|]. split; [intros; apply LA|]. intros a i Ha NC. rewrite W. unfold in_first, cells_of in *. destruct into as [h|]; auto. cbn [slen] in Hn.
    destruct (Nat.eqb_spec a (arr h)); cbn [andb]; auto. destruct (Nat.leb_spec (off h) i), (Nat.ltb_spec i (off h + n)); cbn [andb]; auto. exfalso. apply NC. lia.
  Qed.

  Lemma zero_fill_done : forall n i m, valid m into -> i + n = slen into -> exists m', zero_fill into m n i = Done m' /\ valid m' into /\ frame (cells_of into) m m' /\
    contents m' into = firstn i (contents m into) ++ repeat zv n.
  Proof.
    induction n as [|n IH]; intros i m V Hn; cbn [zero_fill].
    - exists m. split; auto. split; auto. split; [apply frame_refl|]. cbn. rewrite app_nil_r, firstn_all2; auto. rewrite contents_length; auto. lia.
    - pose proof (sset_spec m into i zv V) as SP. destruct (sset m into i zv) as [m1| |]; [|lia|contradiction].
      destruct SP as (Hi & F & L & SN & V1). cbn [obind]. destruct (IH (i + 1) m1 V1 ltac:(lia)) as (m' & E & V' & F' & C).
      exists m'. split; auto. split; auto. split; [eapply frame_trans; eauto|]. rewrite C.
      assert (LC : i < length (contents m into)) by (rewrite contents_length; auto).
      assert (E1 : contents m1 into = firstn i (contents m into) ++ zv :: skipn (S i) (contents m into)).
      { pose proof (firstn_skipn i (contents m into)) as FS. destruct (skipn i (contents m into)) as [|x q] eqn:EQ; [exfalso; pose proof (skipn_length i (contents m into)) as SL; rewrite EQ in SL; cbn in SL; lia|].
        pose proof (set_nth_app (firstn i (contents m into)) x q zv) as SA. rewrite FS, firstn_length in SA. replace (Nat.min i (length (contents m into))) with i in SA by lia.
        rewrite SN in SA. assert (Q : q = skipn (S i) (contents m into)) by (change q with (skipn 1 (x :: q)); rewrite <- EQ, skipn_skipn; f_equal; lia). rewrite <- Q. congruence. }
      rewrite E1, firstn_app, firstn_firstn, firstn_length. replace (Nat.min (i + 1) i) with i by lia. replace (i + 1 - Nat.min i (length (contents m into))) with 1 by lia.
      cbn [firstn]. rewrite <- app_assoc. reflexivity.
  Qed.

  Theorem into_done e : length out <= slen into -> snd (meaning p tr) = Some e ->
    exists m', frame (cells_of into) m0 m' /\ valid m' into /\
      (exists N, forall fuel, N <= fuel -> into_slice p from into fuel m0 = Done (match e with EOI => None | _ => Some e end, m')) /\
      contents m' into = match e with EOI => out ++ skipn (length out) (contents m0 into) | _ => repeat zv (slen into) end.
  Proof.
    intros Hs EE.
    destruct (drive_pure p from m0 (store_index into) I (length out) (le_n _) into_read (into_store _ (le_n _) Hs) 0 e eq_refl EE into_start) as (m & i & st & (-> & W) & N & R).
    pose proof (written_valid _ _ _ _ _ into W VI) as V. pose proof (written_frame m (length out) Hs W) as F.
    destruct (zero_fill_done (slen into) 0 m V eq_refl) as (m2 & Z2 & V2 & F2 & C2).
    destruct e.
    1: { exists m. split; auto. split; auto. split; [exists N; intros fuel Hf; unfold into_slice; rewrite (R fuel fuel Hf Hf); reflexivity|]. apply written_contents; auto. }
    all: exists m2; split; [eapply frame_trans; eauto|]; split; auto; split; [exists N; intros fuel Hf; unfold into_slice; rewrite (R fuel fuel Hf Hf); cbn [obind]; rewrite Z2; reflexivity|exact C2].
  Qed.

  Theorem into_panics : slen into < length out -> exists N, forall fuel, N <= fuel -> into_slice p from into fuel m0 = Panicked.
  Proof.
    intros Hs. destruct (nth_error out (slen into)) as [v|] eqn:EV; [|apply nth_error_None in EV; lia].
    assert (HN : slen into <= length out) by lia.
    destruct (drive_panics p from m0 (store_index into) I (slen into) HN (fun k m d Hk => into_read k m d (Nat.le_trans _ _ _ Hk HN)) (into_store _ HN (le_n _)) 0 v EV) as (N & R).
    - intros m i (-> & W). unfold store_index, sset. destruct into as [h|]; [|reflexivity]. cbn [slen]. rewrite Nat.ltb_irrefl. reflexivity.
    - exact into_start.
    - exists N. intros fuel Hf. unfold into_slice. rewrite (R fuel fuel Hf Hf). reflexivity.
  Qed.
End Into.
