(** OfSliceWriter on the memory the source iterates over, and a destination that begins after its source. *)
From Verif Require Import Base Iter IterGen IterSpec IterProofs IterGenProofs Stream StreamSpec StreamProofs Pipe PipeSpec PipeProofs Slice SliceMem SliceMemProofs MemIter MemIterSpec MemIterProofs MemIterProofs2.
Open Scope go_scope.
Open Scope nat_scope.

Section Append.
  Context {T : Type} {ZT : Zero T}.
  Variable ex : nat -> nat -> nat.
  Variable p : pipe T T.
  Variables (from into : slice) (m0 : @mem T).
  Hypothesis VF : valid m0 from.
  Hypothesis VI : valid m0 into.
  Let l := contents m0 from.
  Let tr : trace T := (l, Some EOI).
  Let out := fst (meaning p tr).
  Hypothesis SAFE : spare_apart into from \/ ends_before into from /\ no_faster p l.

  (** the cells written to by the first k appends *)
  Definition first_spare (k a i : nat) : Prop :=
    match into with None => False | Some h => a = arr h /\ off h + len h <= i < off h + len h + k /\ i < off h + cap h end.
  Definition may_write (k a i : nat) : Prop := length m0 <= a \/ first_spare k a i.
  Definition same_place (s : slice) : Prop :=
    match s with
    | None => into = None
    | Some h => length m0 <= arr h \/ exists g, into = Some g /\ arr h = arr g /\ off h = off g /\ cap h = cap g
    end.
  Let I (k : nat) (m : @mem T) (s : slice) :=
    valid m s /\ contents m s = contents m0 into ++ firstn k out /\ slen s = slen into + k /\ frame (may_write k) m0 m /\ same_place s.

  Lemma append_read k m s : k <= length out -> I k m s ->
    length (contents m from) = length l /\ forall j, Nat.min (demand p tr k) (length l) <= j -> nth_error (contents m from) j = nth_error l j.
  Proof.
    intros Hk (_ & _ & _ & F & _). pose proof (frame_valid _ _ _ _ F VF) as V. unfold l. rewrite !contents_length by auto. split; auto.
    intros j Hj. assert (D : spare_apart into from \/ ends_before into from /\ Nat.min k (slen from) <= demand p tr k).
    { destruct SAFE as [X|[X NF]]; [left; exact X|right]. split; [exact X|]. pose proof (NF k Hk) as D. unfold l in D. rewrite contents_length in D by auto. exact D. }
    revert D Hj. generalize (demand p tr k). intros d D Hj.
    destruct from as [h|]; [|reflexivity]. rewrite !contents_nth. destruct (Nat.ltb_spec j (len h)); auto. cbn [slen] in *.
    destruct F as (_ & _ & FC). destruct VF as (V1 & V2 & V3). apply FC; auto. intros [X|X]; [lia|]. unfold first_spare in X.
    destruct into as [g|]; [|contradiction]. destruct X as (X1 & X2 & X3). destruct D as [D|[D1 D2]].
    - apply (D (arr h) (off h + j)); cbn; lia.
    - cbn in D1. lia.
  Qed.
  Lemma append_store k m s v : nth_error out k = Some v -> I k m s -> exists m' s', store_append ex m s v = Done (m', s') /\ I (S k) m' s'.
  Proof.
    intros EV (V & C & L & F & SP). unfold store_append. pose proof (sappend_spec ex m s [v] V) as A. destruct (sappend ex m s [v]) as [m' s'].
    destruct A as (V' & C' & L' & F' & A1 & A2). exists m', s'. split; auto. split; auto. cbn [length] in *. split.
    { rewrite C', C, <- app_assoc. f_equal. symmetry. replace (S k) with (k + 1) by lia. clear -EV. revert EV. generalize out. induction k as [|k IH]; intros o EV; destruct o as [|x o]; cbn in *; try discriminate; [congruence|]. f_equal. apply IH. exact EV. }
    split; [lia|]. split.
    { apply frame_trans with m.
      - eapply frame_weaken; [|exact F]. intros a i Ha [X|X]; [left; exact X|right]. unfold first_spare in *. destruct into; [|exact X]. lia.
      - eapply frame_weaken; [|exact F']. intros a i Ha X. unfold spare in X. destruct s as [h|]; [|contradiction]. destruct X as (-> & X & X2). cbn [same_place] in SP.
        destruct SP as [SP|(g & Eg & S1 & S2 & S3)]; [left; exact SP|right]. unfold first_spare. rewrite Eg in *. cbn [slen] in L. lia. }
    destruct (Nat.le_gt_cases (slen s + 1) (scap s)) as [X|X].
    - destruct (A1 X) as (B1 & B2 & B3). destruct s as [h|], s' as [h'|]; try contradiction; auto. cbn [same_place] in *. destruct SP as [SP|(g & Eg & S1 & S2 & S3)]; [left; lia|right].
      exists g. cbn in B1. split; [exact Eg|]. lia.
    - destruct (A2 X) as ((h & -> & Eh) & _). cbn [same_place]. left. destruct F as (F1 & _). lia.
  Qed.

  Theorem append_done e : snd (meaning p tr) = Some e ->
    exists m' s', (exists N, forall fuel, N <= fuel -> append_all ex p from into fuel m0 = Done (e, (m', s'))) /\ valid m' s' /\
      contents m' s' = contents m0 into ++ out /\ frame (spare_of into) m0 m'.
  Proof.
    intros EE.
    destruct (drive_pure p from m0 (store_append ex) I (length out) (le_n _) append_read (fun k m d v _ => append_store k m d v) into e eq_refl EE) as (m & s & st & (V & C & L & F & SP) & N & R).
    - split; auto. split; [cbn; rewrite app_nil_r; reflexivity|]. split; [lia|]. split; [apply frame_refl|]. unfold same_place. destruct into as [h|]; auto. right. exists h. auto.
    - exists m, s. split; [exists N; intros fuel Hf; unfold append_all; rewrite (R fuel fuel Hf Hf); reflexivity|]. split; auto. split; [rewrite C, firstn_all; reflexivity|].
      eapply frame_weaken; [|exact F]. intros a i Ha [X|X]; [lia|]. unfold first_spare, spare_of in *. destruct into; [|exact X]. lia.
  Qed.
End Append.

(** ** A destination that begins d cells after its source *)
Section Shift.
  Context {T : Type} {ZT : Zero T}.
  Variable f : T -> T.
  Let p : pipe T T := PThen (SMap ZT (fun (_ : unit) x => (f x, tt)) tt) PEnd.
  Let st (k : nat) : pipe_state p (impl nat T) := ofIter (ofIter k, tt).

  Lemma shift_next from m k fuel v : nth_error (contents m from) k = Some v -> mem_next p from m fuel (st k) = Done ((f v, None), st (k + 1)).
  Proof.
    intros E. unfold mem_next, st, p, ofIter. cbn. unfold slice_gen.
    assert (k < length (contents m from)) by (apply nth_error_Some; congruence). destruct (Nat.ltb_spec k (length (contents m from))); [|lia]. rewrite E. reflexivity.
  Qed.
  Lemma shift_end from m k fuel : length (contents m from) <= k -> exists s', mem_next p from m fuel (st k) = Done ((zv, Some EOI), s').
  Proof.
    intros E. unfold mem_next, st, p, ofIter. cbn. unfold slice_gen.
    destruct (Nat.ltb_spec k (length (contents m from))); [lia|]. eexists. reflexivity.
  Qed.

  Variables (a o n c n' c' d : nat) (m0 : @mem T).
  Let from := Some (Hdr a o n c).
  Let into := Some (Hdr a (o + d) n' c').
  Hypothesis VF : valid m0 from.
  Hypothesis VI : valid m0 into.
  Hypothesis DP : 0 < d.
  Hypothesis FIT : n <= n'.

  Let rd (k : nat) : option T := option_map (times f (k / d)) (nth_error (contents m0 from) (k mod d)).
  Let J (k : nat) (m : @mem T) := length m = length m0 /\ (forall b, length (array m b) = length (array m0 b)) /\
    forall b j, cell m b j = if (b =? a) && (o + d <=? j) && (j <? o + d + k) then option_map f (rd (j - (o + d))) else cell m0 b j.

  Lemma shift_read k m : k < n -> J k m -> nth_error (contents m from) k = rd k.
  Proof.
    intros Hk (_ & _ & C). unfold from, rd. rewrite contents_nth. cbn [len arr off]. destruct (Nat.ltb_spec k n); [|lia]. rewrite C, Nat.eqb_refl. cbn [andb].
    destruct (Nat.leb_spec (o + d) (o + k)); cbn [andb].
    - destruct (Nat.ltb_spec (o + k) (o + d + k)); [|lia]. replace (o + k - (o + d)) with (k - d) by lia. unfold rd.
      assert (Q : k / d = S ((k - d) / d)). { replace k with (k - d + 1 * d) at 1 by lia. rewrite Nat.div_add by lia. lia. }
      assert (R : k mod d = (k - d) mod d). { replace k with (k - d + 1 * d) at 1 by lia. apply Nat.mod_add. lia. }
      rewrite Q, R. destruct (nth_error (contents m0 from) ((k - d) mod d)); reflexivity.
    - rewrite Nat.div_small, Nat.mod_small by lia. unfold from. rewrite contents_nth. cbn [len arr off]. destruct (Nat.ltb_spec k n); [|lia]. cbn [times]. destruct (cell m0 a (o + k)); reflexivity.
  Qed.

  Lemma shift_value k : k < n -> exists v, rd k = Some v.
  Proof.
    intros Hk. unfold rd. destruct (nth_error (contents m0 from) (k mod d)) as [v|] eqn:E; [eexists; reflexivity|].
    apply nth_error_None in E. rewrite contents_length in E by auto. cbn in E. pose proof (Nat.mod_le k d ltac:(lia)). lia.
  Qed.

  Lemma shift_drive : forall r k m, k + r = n -> J k m -> exists m', J n m' /\ exists s', forall loop fuel, r < loop ->
    drive p from (store_index into) loop fuel m k (st k) = Done (EOI, (m', n, s')).
  Proof.
    induction r as [|r IH]; intros k m Hr HJ.
    - assert (k = n) by lia. subst k. exists m. split; auto.
      assert (LC : length (contents m from) = n).
      { rewrite contents_length; [reflexivity|]. destruct HJ as (L & LA & _). unfold from in *. cbn. rewrite L, LA. exact VF. }
      destruct (shift_end from m n 0 ltac:(lia)) as (s' & _). 
      exists (match mem_next p from m 0 (st n) with Done (_, s) => s | _ => st n end). intros loop fuel Hl. destruct loop as [|loop]; [lia|]. cbn [drive].
      assert (EF : mem_next p from m fuel (st n) = mem_next p from m 0 (st n)). { reflexivity. }
      rewrite EF. destruct (shift_end from m n 0 ltac:(lia)) as (s2 & E2). rewrite E2. reflexivity.
    - destruct (shift_value k ltac:(lia)) as [v EV]. pose proof (shift_read k m ltac:(lia) HJ) as ER. rewrite EV in ER.
      assert (VM : valid m into). { destruct HJ as (L & LA & _). unfold into in *. cbn. rewrite L, LA. exact VI. }
      destruct (sset_done m _ k (f v) VM ltac:(cbn; lia)) as (m1 & E1 & L1 & LA1 & C1). cbn [arr off] in C1.
      destruct (IH (k + 1) m1 ltac:(lia)) as (m' & HJ' & s' & R).
      { destruct HJ as (L & LA & C). split; [lia|]. split; [intros b; rewrite LA1; apply LA|]. intros b j. rewrite C1, C.
        destruct (Nat.eqb_spec b a); cbn [andb]; auto. destruct (Nat.eqb_spec j (o + d + k)) as [->|NE].
        - destruct (Nat.leb_spec (o + d) (o + d + k)), (Nat.ltb_spec (o + d + k) (o + d + (k + 1))); try lia. cbn [andb]. replace (o + d + k - (o + d)) with k by lia. rewrite EV. reflexivity.
        - destruct (Nat.leb_spec (o + d) j); cbn [andb]; auto. destruct (Nat.ltb_spec j (o + d + k)), (Nat.ltb_spec j (o + d + (k + 1))); auto; lia. }
      exists m'. split; auto. exists s'. intros loop fuel Hl. destruct loop as [|loop]; [lia|]. cbn [drive]. rewrite (shift_next from m k fuel v ER). cbn [obind].
      unfold store_index. fold into in E1. rewrite E1. cbn [obind]. apply R. lia.
  Qed.

  Theorem shift_done : exists m', (exists N, forall fuel, N <= fuel -> into_slice p from into fuel m0 = Done (None, m')) /\
    forall i, i < n -> nth_error (contents m' into) i = option_map (times f (i / d + 1)) (nth_error (contents m0 from) (i mod d)).
  Proof.
    destruct (shift_drive n 0 m0 eq_refl) as (m' & (_ & _ & C) & s' & R).
    { split; auto. split; auto. intros b j. destruct (Nat.leb_spec (o + d) j), (Nat.ltb_spec j (o + d + 0)); try lia; rewrite ?andb_false_r; auto. }
    exists m'. split.
    - exists (S n). intros fuel Hf. unfold into_slice. change (pipe_init p _ (ofIter 0)) with (st 0). rewrite R by lia. reflexivity.
    - intros i Hi. unfold into. rewrite contents_nth. cbn [len arr off]. destruct (Nat.ltb_spec i n'); [|lia]. rewrite C, Nat.eqb_refl. cbn [andb].
      destruct (Nat.leb_spec (o + d) (o + d + i)), (Nat.ltb_spec (o + d + i) (o + d + n)); try lia. cbn [andb]. replace (o + d + i - (o + d)) with i by lia. unfold rd.
      replace (i / d + 1) with (S (i / d)) by lia. destruct (nth_error (contents m0 from) (i mod d)); reflexivity.
  Qed.
End Shift.
