(** Proofs about Regex.v: matching and texts. *)
From Verif Require Import Base Rest ReaderSpec JsonSpec Regex RegexSpec.
From Coq Require Import String List.
Import ListNotations.
Open Scope Z_scope.

(** ** Matching *)
Fixpoint starok (r : re) : Prop :=
  match r with
  | RStar _ a => nullable a = false /\ starok a
  | RCat a b | RAlt a b => starok a /\ starok b
  | RGroup _ a => starok a
  | _ => True
  end.

Section M.
  Variable cs : list cell.
  Open Scope nat_scope.
  Lemma means_le r p c q d : means cs r p c q d -> p <= q.
  Proof. induction 1; lia. Qed.
  Lemma means_bound r p c q d : means cs r p c q d -> p <= length cs -> q <= length cs.
  Proof.
    induction 1 as [p c|neg ranges p c x bs E _| | |a b p c q d e f _ IH1 _ IH2| | | |g a p c q d e f _ IH1 _ IH2|n a p c q d _ IH]; auto; intros L.
    assert (p < length cs) by (apply nth_error_Some; congruence). lia.
  Qed.
  Lemma means_progress r p c q d : means cs r p c q d -> nullable r = false -> p < q.
  Proof.
    induction 1 as [p c|neg ranges p c x bs E _| | |a b p c q d e f M1 IH1 M2 IH2|a b p c q d _ IH|a b p c q d _ IH| |g a p c q d e f _ _ _ _|n a p c q d _ IH];
      cbn; intros N; try discriminate; try lia.
    - apply means_le in M1, M2. apply andb_false_iff in N as [N|N]; [specialize (IH1 N)|specialize (IH2 N)]; lia.
    - apply orb_false_iff in N as [N _]. auto.
    - apply orb_false_iff in N as [_ N]. auto.
  Qed.

  Lemma ways_star g a p c : ways cs (RStar g a) p c = star_ways g (ways cs a) (length cs - p) p c.
  Proof. reflexivity. Qed.

  Lemma ways_sound r : forall p c q d, In (q, d) (ways cs r p c) -> means cs r p c q d.
  Proof.
    induction r as [|neg ranges| | |a IHa b IHb|a IHa b IHb|g a IHa|n a IHa]; intros p c q d I.
    - destruct I as [E|[]]. inversion E; subst. constructor.
    - cbn in I. destruct (nth_error cs p) as [[x bs]|] eqn:E; [|destruct I]. destruct (in_class neg ranges x) eqn:C; [|destruct I].
      destruct I as [E'|[]]. inversion E'; subst. econstructor; eauto.
    - cbn [ways] in I. destruct (Nat.eqb_spec p 0) as [->|]; [|destruct I]. destruct I as [E|[]]. inversion E; subst. constructor.
    - cbn [ways] in I. destruct (Nat.eqb_spec p (length cs)) as [->|]; [|destruct I]. destruct I as [E|[]]. inversion E; subst. constructor.
    - cbn in I. apply in_flat_map in I as ([q1 d1] & I1 & I2). econstructor; eauto.
    - cbn in I. apply in_app_or in I as [I|I]; [apply m_alt1|apply m_alt2]; auto.
    - rewrite ways_star in I. generalize dependent (length cs - p). intros n. revert p c q d. induction n as [|n IHn]; intros p c q d I; cbn [star_ways] in I.
      + destruct I as [E|[]]. inversion E; subst. constructor.
      + set (more := flat_map _ _) in I.
        assert (H : In (q, d) more -> means cs (RStar g a) p c q d).
        { unfold more. intros J. apply in_flat_map in J as ([q1 d1] & I1 & I2). destruct (p <? q1); [|destruct I2].
          econstructor; eauto. }
        assert (H0 : (p, c) = (q, d) -> means cs (RStar g a) p c q d) by (intros E; inversion E; subst; constructor).
        destruct g; [apply in_app_or in I as [I|[I|[]]]|destruct I as [I|I]]; auto.
    - cbn in I. apply in_map_iff in I as ([q1 d1] & E & I). inversion E; subst. constructor. auto.
  Qed.

  Lemma means_star_inv g a p c q d : means cs (RStar g a) p c q d -> nullable a = false -> p <= length cs ->
    forall w, (forall p c q d, p <= length cs -> means cs a p c q d -> In (q, d) (w p c)) ->
    forall n, length cs - p <= n -> In (q, d) (star_ways g w n p c).
  Proof.
    intros M. remember (RStar g a) as r eqn:R. induction M as [| | | | | | |g' a' p c|g' a' p c q d e f M1 _ M2 IH2|]; try discriminate;
      inversion R; subst; intros NU L w W n LN.
    - destruct n as [|n]; cbn; [left; reflexivity|]. destruct g; [apply in_or_app; right|]; left; reflexivity.
    - pose proof (means_progress _ _ _ _ _ M1 NU). pose proof (means_bound _ _ _ _ _ M1 L). destruct n as [|n]; [lia|]. cbn [star_ways].
      assert (H1 : In (e, f) (flat_map (fun '(q0, d0) => if p <? q0 then star_ways g w n q0 d0 else []) (w p c))).
      { apply in_flat_map. exists (q, d). split; [apply W; auto|]. replace (p <? q) with true by (symmetry; apply Nat.ltb_lt; lia).
        apply IH2; auto. lia. }
      destruct g; [apply in_or_app; left; exact H1|right; exact H1].
  Qed.

  Lemma ways_complete r : starok r -> forall p c q d, p <= length cs -> means cs r p c q d -> In (q, d) (ways cs r p c).
  Proof.
    induction r as [|neg ranges| | |a IHa b IHb|a IHa b IHb|g a IHa|n a IHa]; cbn [starok]; intros OK p c q d L M.
    - inversion M; subst. left; reflexivity.
    - inversion M as [|? ? ? ? x bs E C| | | | | | | |]; subst. cbn. rewrite E, C. left; reflexivity.
    - inversion M; subst. left; reflexivity.
    - inversion M; subst. cbn [ways]. rewrite Nat.eqb_refl. left; reflexivity.
    - destruct OK as [OA OB]. inversion M as [| | | |? ? ? ? q1 d1 ? ? M1 M2| | | | |]; subst. cbn. apply in_flat_map.
      exists (q1, d1). split; [apply IHa; auto|]. apply IHb; auto. eapply means_bound; eauto.
    - destruct OK as [OA OB]. cbn. apply in_or_app. inversion M; subst; auto.
    - destruct OK as [NU OA]. rewrite ways_star. eapply means_star_inv; eauto.
    - inversion M; subst. cbn. apply in_map_iff. exists (q, d0). split; [reflexivity|]. apply IHa; auto.
  Qed.

  Lemma search_spec r : starok r -> forall n p, p + n = S (length cs) ->
    match search cs r n p with
    | Some (p', q, c) => p <= p' /\ p' <= length cs /\ means cs r p' [] q c /\ (forall i j d, p <= i < p' -> ~ means cs r i [] j d)
    | None => forall i j d, p <= i <= length cs -> ~ means cs r i [] j d
    end.
  Proof.
    intros OK. induction n as [|n IH]; intros p E; cbn [search].
    - intros i j d L. lia.
    - destruct (ways cs r p []) as [|[q c] l] eqn:W.
      + assert (NO : forall j d, ~ means cs r p [] j d).
        { intros j d M. apply ways_complete in M; auto; [|lia]. rewrite W in M. destruct M. }
        specialize (IH (S p) ltac:(lia)). destruct (search cs r n (S p)) as [[[p' q] c]|].
        * destruct IH as (A & B & C & D). split; [lia|]. split; [lia|]. split; [exact C|]. intros i j d L.
          destruct (Nat.eq_dec i p) as [->|]; [apply NO|apply D; lia].
        * intros i j d L. destruct (Nat.eq_dec i p) as [->|]; [apply NO|apply IH; lia].
      + split; [lia|]. split; [lia|]. split; [apply ways_sound; rewrite W; left; reflexivity|]. intros; lia.
  Qed.
End M.

(** ** Runes and bytes *)
Lemma cells_bytes_len n : forall s, (List.length s < n)%nat -> flat_map snd (cells_of s) = s.
Proof.
  induction n as [|n IH]; intros s L; [lia|]. destruct s as [|b0 s0]; [reflexivity|]. cbn [List.length] in L.
  assert (B : flat_map snd ((65533, [b0]) :: cells_of s0) = b0 :: s0) by (cbn; rewrite IH by lia; reflexivity).
  cbn [cells_of]. destruct (b0 <? 128). { cbn. rewrite IH by lia. reflexivity. }
  destruct s0 as [|b1 s1]; [exact B|]. cbn [List.length] in L.
  destruct (_ && trail b1). { cbn. rewrite IH by lia. reflexivity. }
  destruct s1 as [|b2 s2]; [exact B|]. cbn [List.length] in L.
  destruct (_ && negb _). { cbn [flat_map snd app]. rewrite IH by lia. reflexivity. }
  destruct s2 as [|b3 s3]; [exact B|]. cbn [List.length] in L.
  destruct (_ && (_ <=? 1114111)). { cbn [flat_map snd app]. rewrite IH by lia. reflexivity. }
  exact B.
Qed.
Lemma cells_bytes s : flat_map snd (cells_of s) = s.
Proof. apply (cells_bytes_len (S (List.length s))). lia. Qed.

Definition good_cell (x : cell) : Prop :=
  match x with
  | (r, bs) => (r = 65533 /\ exists b, bs = [b] /\ 128 <= b) \/ (bs = encode r /\ r < 128 /\ bs = [r]) \/ (bs = encode r /\ 128 <= r /\ Forall (fun b => 128 <= b) bs)
  end.

Ltac andbs := repeat match goal with H : (_ && _) = true |- _ => apply andb_true_iff in H as [? ?] end.

Lemma cells_good_len n : forall s, (List.length s < n)%nat -> Forall good_cell (cells_of s).
Proof.
  induction n as [|n IH]; intros s L; [lia|]. destruct s as [|b0 s0]; [constructor|]. cbn [List.length] in L.
  destruct (b0 <? 128) eqn:E0.
  { cbn [cells_of]. rewrite E0. constructor; [|apply IH; lia]. right; left. unfold encode. rewrite E0. repeat split; auto. lia. }
  assert (B : Forall good_cell ((65533, [b0]) :: cells_of s0)).
  { constructor; [|apply IH; lia]. left. split; [reflexivity|]. exists b0. split; [reflexivity|lia]. }
  cbn [cells_of]. rewrite E0.
  destruct s0 as [|b1 s1]; [exact B|]. cbn [List.length] in L.
  destruct (_ && trail b1) eqn:E1.
  { andbs. unfold trail in *. andbs. constructor; [|apply IH; lia]. right; right.
    assert (R : 128 <= (b0 - 192) * 64 + (b1 - 128) < 2048) by lia. split; [|split; [lia|repeat constructor; lia]].
    unfold encode. replace (_ <? 128) with false by lia. replace (_ <? 2048) with true by lia.
    replace ((b0 - 192) * 64 + (b1 - 128)) with ((b1 - 128) + (b0 - 192) * 64) by lia.
    rewrite Z.div_add, Z.mod_add by lia. rewrite Z.div_small, Z.mod_small by lia. repeat f_equal; lia. }
  destruct s1 as [|b2 s2]; [exact B|]. cbn [List.length] in L.
  destruct (_ && negb _) eqn:E2.
  { andbs. unfold trail in *. andbs. constructor; [|apply IH; lia]. right; right.
    set (r := (b0 - 224) * 4096 + (b1 - 128) * 64 + (b2 - 128)) in *.
    assert (R : 2048 <= r < 65536) by lia. split; [|split; [lia|repeat constructor; lia]].
    unfold encode. replace (r <? 128) with false by lia. replace (r <? 2048) with false by lia. replace (r <? 65536) with true by lia.
    assert (D1 : r / 64 = (b0 - 224) * 64 + (b1 - 128)).
    { symmetry. apply (Z.div_unique _ 64 _ (b2 - 128)); lia. }
    assert (D2 : r / 4096 = b0 - 224).
    { symmetry. apply (Z.div_unique _ 4096 _ ((b1 - 128) * 64 + (b2 - 128))); lia. }
    assert (D3 : r mod 64 = b2 - 128).
    { symmetry. apply (Z.mod_unique _ 64 ((b0 - 224) * 64 + (b1 - 128)) _); lia. }
    rewrite D3, D2, D1. assert (D4 : ((b0 - 224) * 64 + (b1 - 128)) mod 64 = b1 - 128).
    { symmetry. apply (Z.mod_unique _ 64 (b0 - 224) _); lia. }
    rewrite D4. repeat f_equal; lia. }
  destruct s2 as [|b3 s3]; [exact B|]. cbn [List.length] in L.
  destruct (_ && (_ <=? 1114111)) eqn:E3; [|exact B].
  andbs. unfold trail in *. andbs. constructor; [|apply IH; lia]. right; right.
  set (r := (b0 - 240) * 262144 + (b1 - 128) * 4096 + (b2 - 128) * 64 + (b3 - 128)) in *.
  assert (R : 65536 <= r) by lia. split; [|split; [lia|repeat constructor; lia]].
  unfold encode. replace (r <? 128) with false by lia. replace (r <? 2048) with false by lia. replace (r <? 65536) with false by lia.
  assert (D1 : r / 64 = (b0 - 240) * 4096 + (b1 - 128) * 64 + (b2 - 128)).
  { symmetry. apply (Z.div_unique _ 64 _ (b3 - 128)); lia. }
  assert (D2 : r / 4096 = (b0 - 240) * 64 + (b1 - 128)).
  { symmetry. apply (Z.div_unique _ 4096 _ ((b2 - 128) * 64 + (b3 - 128))); lia. }
  assert (D2' : r / 262144 = b0 - 240).
  { symmetry. apply (Z.div_unique _ 262144 _ ((b1 - 128) * 4096 + (b2 - 128) * 64 + (b3 - 128))); lia. }
  assert (D3 : r mod 64 = b3 - 128).
  { symmetry. apply (Z.mod_unique _ 64 ((b0 - 240) * 4096 + (b1 - 128) * 64 + (b2 - 128)) _); lia. }
  rewrite D3, D2', D2, D1.
  assert (D4 : ((b0 - 240) * 64 + (b1 - 128)) mod 64 = b1 - 128).
  { symmetry. apply (Z.mod_unique _ 64 (b0 - 240) _); lia. }
  assert (D5 : ((b0 - 240) * 4096 + (b1 - 128) * 64 + (b2 - 128)) mod 64 = b2 - 128).
  { symmetry. apply (Z.mod_unique _ 64 ((b0 - 240) * 64 + (b1 - 128)) _); lia. }
  rewrite D4, D5. repeat f_equal; lia.
Qed.
Lemma cells_good s : Forall good_cell (cells_of s).
Proof. apply (cells_good_len (S (List.length s))). lia. Qed.

(** a text may be cut where a byte stands that continues no rune *)
Definition cut_before (x : str) : Prop := match x with [] => True | b :: _ => trail b = false end.
Lemma cells_app_len n : forall s x, (List.length s < n)%nat -> cut_before x -> cells_of (s ++ x) = cells_of s ++ cells_of x.
Proof.
  induction n as [|n IH]; intros s x L C; [lia|]. destruct s as [|b0 s0]; [reflexivity|]. cbn [List.length] in L.
  destruct x as [|y x]; [rewrite !app_nil_r; reflexivity|]. cbn [cut_before] in C.
  assert (B : (65533, [b0]) :: cells_of (s0 ++ y :: x) = ((65533, [b0]) :: cells_of s0) ++ cells_of (y :: x)).
  { rewrite IH; [reflexivity|lia|exact C]. }
  set (t := y :: x) in *.
  cbn [app cells_of]. destruct (b0 <? 128) eqn:E0. { cbn. rewrite IH; [reflexivity|lia|exact C]. }
  destruct s0 as [|b1 s1].
  { cbn [app] in *. unfold t at 1. destruct (_ && trail y) eqn:E1; [andbs; congruence|].
    destruct x as [|b2 x2]; [exact B|]. destruct (_ && negb _) eqn:E2; [andbs; congruence|].
    destruct x2 as [|b3 x3]; [exact B|]. destruct (_ && (_ <=? 1114111)) eqn:E3; [andbs; congruence|]. exact B. }
  cbn [List.length] in L. cbn [app] in *. destruct (_ && trail b1) eqn:E1. { cbn. rewrite IH; [reflexivity|lia|exact C]. }
  destruct s1 as [|b2 s2].
  { cbn [app] in *. unfold t at 1. destruct (_ && negb _) eqn:E2; [andbs; congruence|].
    destruct x as [|b3 x3]; [exact B|]. destruct (_ && (_ <=? 1114111)) eqn:E3; [andbs; congruence|]. exact B. }
  cbn [List.length] in L. cbn [app] in *. destruct (_ && negb _) eqn:E2. { cbn [app]. rewrite IH; [reflexivity|lia|exact C]. }
  destruct s2 as [|b3 s3].
  { cbn [app] in *. unfold t at 1. destruct (_ && (_ <=? 1114111)) eqn:E3; [andbs; congruence|]. exact B. }
  cbn [List.length] in L. cbn [app] in *. destruct (_ && (_ <=? 1114111)) eqn:E3. { cbn [app]. rewrite IH; [reflexivity|lia|exact C]. }
  exact B.
Qed.
Lemma cells_app s x : cut_before x -> cells_of (s ++ x) = cells_of s ++ cells_of x.
Proof. apply (cells_app_len (S (List.length s))). lia. Qed.

From Coq Require Import ZifyBool.
(** the encoding of a rune is read as that rune *)
Lemma cells_encode c s : scalar c -> cells_of (encode c ++ s) = (c, encode c) :: cells_of s.
Proof.
  intros [R NS]. unfold encode.
  destruct (c <? 128) eqn:C1. { cbn [app cells_of]. rewrite C1. reflexivity. }
  destruct (c <? 2048) eqn:C2.
  { cbn [app cells_of]. pose proof (Z.div_mod c 64). pose proof (Z.mod_pos_bound c 64). 
    set (q := c / 64) in *. set (r := c mod 64) in *. unfold trail.
    replace (192 + q <? 128) with false by lia. replace ((194 <=? 192 + q) && (192 + q <=? 223) && ((128 <=? 128 + r) && (128 + r <=? 191))) with true by lia.
    do 2 f_equal; lia. }
  destruct (c <? 65536) eqn:C3.
  { cbn [app cells_of].
    assert (E : c = (c / 4096) * 4096 + (c / 64 mod 64) * 64 + c mod 64).
    { pose proof (Z.div_mod c 64 ltac:(lia)). pose proof (Z.div_mod (c / 64) 64 ltac:(lia)). rewrite Z.div_div in H0 by lia. change (64 * 64) with 4096 in H0. lia. }
    pose proof (Z.mod_pos_bound c 64 ltac:(lia)). pose proof (Z.mod_pos_bound (c / 64) 64 ltac:(lia)).
    set (a := c / 4096) in *. set (b := c / 64 mod 64) in *. set (d := c mod 64) in *. unfold trail.
    replace (224 + a <? 128) with false by lia. replace ((194 <=? 224 + a) && (224 + a <=? 223)) with false by lia. cbn [andb].
    replace ((224 + a - 224) * 4096 + (128 + b - 128) * 64 + (128 + d - 128)) with c by lia.
    replace ((224 <=? 224 + a) && (224 + a <=? 239) && ((128 <=? 128 + b) && (128 + b <=? 191)) && ((128 <=? 128 + d) && (128 + d <=? 191)) && (2048 <=? c) && negb ((55296 <=? c) && (c <=? 57343))) with true by lia.
    reflexivity. }
  cbn [app cells_of].
  assert (E : c = (c / 262144) * 262144 + (c / 4096 mod 64) * 4096 + (c / 64 mod 64) * 64 + c mod 64).
  { pose proof (Z.div_mod c 64 ltac:(lia)). pose proof (Z.div_mod (c / 64) 64 ltac:(lia)) as H0. rewrite Z.div_div in H0 by lia. change (64 * 64) with 4096 in H0.
    pose proof (Z.div_mod (c / 4096) 64 ltac:(lia)) as H1. rewrite Z.div_div in H1 by lia. change (4096 * 64) with 262144 in H1. lia. }
  pose proof (Z.mod_pos_bound c 64 ltac:(lia)). pose proof (Z.mod_pos_bound (c / 64) 64 ltac:(lia)). pose proof (Z.mod_pos_bound (c / 4096) 64 ltac:(lia)).
  set (a := c / 262144) in *. set (b := c / 4096 mod 64) in *. set (d := c / 64 mod 64) in *. set (g := c mod 64) in *. unfold trail.
  replace (240 + a <? 128) with false by lia. replace ((194 <=? 240 + a) && (240 + a <=? 223)) with false by lia. cbn [andb].
  replace ((224 <=? 240 + a) && (240 + a <=? 239)) with false by lia. cbn [andb].
  replace ((240 + a - 240) * 262144 + (128 + b - 128) * 4096 + (128 + d - 128) * 64 + (128 + g - 128)) with c by lia.
  replace ((240 <=? 240 + a) && (240 + a <=? 244) && ((128 <=? 128 + b) && (128 + b <=? 191)) && ((128 <=? 128 + d) && (128 + d <=? 191)) && ((128 <=? 128 + g) && (128 + g <=? 191)) && (65536 <=? c) && (c <=? 1114111)) with true by lia.
  reflexivity.
Qed.
