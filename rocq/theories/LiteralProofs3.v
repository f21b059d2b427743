(** Proofs about the texts of numbers: what is written is read back. *)
From Coq Require Import ZArith List QArith Qabs Qpower Bool Lia Lqa.
From Verif Require ConvFloatProofs3 ConvFloatProofs4.
From Verif Require Import Base Float FloatSpec FloatProofs FloatProofs2 ConvFloat ConvFloatSpec Decimal DecimalSpec DecDigits Literal LiteralSpec LiteralProofs LiteralProofs2.
Close Scope Q_scope.
Open Scope Z_scope.

Lemma chr_only l : digits_ok l -> digits_only (map chr l).
Proof. induction 1 as [|d l H _ IH]; constructor; [unfold chr; lia|exact IH]. Qed.
Lemma b10_chr l : forall z, b10 z (map chr l) = fold_left (fun a d => 10 * a + d) l z.
Proof. induction l as [|d l IH]; intros z; [reflexivity|]. unfold b10 in *. cbn [map fold_left]. rewrite IH. f_equal. unfold chr. lia. Qed.
Lemma in_base_chr l : in_base_ten (map chr l) = undec l. Proof. apply (b10_chr l 0). Qed.
Lemma dec_nonempty n : 0 <= n -> dec n <> [].
Proof. intros H E. pose proof (dec_len_pos n H) as L. rewrite E in L. cbn in L. lia. Qed.
Lemma dec_string n : 0 <= n -> digit_string (map chr (dec n)) /\ in_base_ten (map chr (dec n)) = n.
Proof.
  intros H. split; [split|].
  - intros E. apply map_eq_nil in E. exact (dec_nonempty n H E).
  - apply chr_only, dec_ok, H.
  - rewrite in_base_chr. apply undec_dec, H.
Qed.
Lemma dec_head n : 0 < n -> match dec n with 0 :: _ => False | _ => True end.
Proof.
  intros H. destruct (dec_len n H) as (k & L & B1 & B2). pose proof (undec_dec n ltac:(lia)) as U. pose proof (dec_ok n ltac:(lia)) as D.
  destruct (dec n) as [|d l]; [exact Logic.I|]. destruct d as [|d|d]; try exact Logic.I. rewrite undec_cons in U. inversion D as [|? ? _ Dl]; subst.
  pose proof (undec_bounds l Dl). injection L as L. rewrite L in *. lia.
Qed.
Lemma dec_no_prefix n : 0 <= n -> no_prefix false (map chr (dec n)).
Proof.
  intros H. destruct (Z.eq_dec n 0) as [->|N]; [exact Logic.I|]. pose proof (dec_head n ltac:(lia)) as Hd. pose proof (dec_ok n H) as D.
  destruct (dec n) as [|d [|d2 l]]; [exact Logic.I| |].
  - cbn. destruct (chr d); try exact Logic.I. repeat (destruct p; try exact Logic.I).
  - cbn [map no_prefix]. inversion D; subst. assert (Hc : chr d <> 48) by (unfold chr; destruct d; [destruct Hd|lia|lia]).
    destruct (chr d) as [|p|p]; try exact Logic.I. repeat (destruct p as [p|p|]; try exact Logic.I). congruence.
Qed.
Lemma scan_dec n : 0 <= n -> nat_scan true false (map chr (dec n)) = Some (n, 10, 0, []).
Proof.
  intros H. rewrite (nat_scan10_true false _ (dec_no_prefix n H)). destruct (dec_string n H) as (A & B).
  rewrite <- (app_nil_r (map chr (dec n))), (scan_int true false _ [] A Logic.I), B. reflexivity.
Qed.
Lemma dec_sign n : 0 <= n -> scan_sign (map chr (dec n)) = (false, map chr (dec n)).
Proof.
  intros H. rewrite scan_sign_after. destruct (dec_string n H) as ((A & B) & _). destruct (map chr (dec n)) as [|c l]; [congruence|].
  inversion B; subst. apply after_sign_other; lia.
Qed.
Lemma int_to_string_text z : decimal_text (int_to_string z) z.
Proof.
  unfold int_to_string. destruct (z <? 0) eqn:C.
  - apply Z.ltb_lt in C. destruct (dec_string (- z) ltac:(lia)) as (A & B). replace z with (- in_base_ten (map chr (dec (- z)))) at 2 by lia. constructor. exact A.
  - apply Z.ltb_ge in C. destruct (dec_string z C) as (A & B). replace z with (in_base_ten (map chr (dec z))) at 2 by lia. constructor. exact A.
Qed.
(** the ratio of two written integers *)
Lemma rat_ratio a d : 0 <= d -> rat_set_string (int_to_string a ++ 47 :: int_to_string d) = if d =? 0 then None else Some (Qred (Qmake a (Z.to_pos d))).
Proof.
  intros Hd. unfold rat_set_string.
  assert (NS : ~ In 47 (int_to_string a)).
  { unfold int_to_string. destruct (a <? 0) eqn:C.
    - intros [I|I]; [discriminate|]. revert I. apply no_slash_digits, chr_only, dec_ok. apply Z.ltb_lt in C. lia.
    - apply no_slash_digits, chr_only, dec_ok. apply Z.ltb_ge in C. lia. }
  rewrite (split_slash_app _ _ NS).
  assert (Ne : int_to_string a <> []).
  { unfold int_to_string. destruct (a <? 0) eqn:C; [discriminate|]. intros E. apply map_eq_nil in E. apply Z.ltb_ge in C. exact (dec_nonempty _ C E). }
  destruct (int_to_string a ++ 47 :: int_to_string d) eqn:E; [destruct (int_to_string a); discriminate|]. clear E z l.
  assert (E2 : int_to_string d = map chr (dec d)) by (unfold int_to_string; destruct (Z.ltb_spec d 0); [lia|reflexivity]).
  rewrite E2, (scan_dec d Hd).
  assert (F : forall (A : Type) (l : list Z) (u v : A), l <> [] -> match l with [] => u | _ => v end = v) by (intros A l u v N; destruct l; [congruence|reflexivity]).
  rewrite F by exact Ne. clear F.
  assert (Sg : exists neg n, scan_sign (int_to_string a) = (neg, map chr (dec n)) /\ 0 <= n /\ a = if neg then - n else n).
  { unfold int_to_string. destruct (a <? 0) eqn:C.
    - apply Z.ltb_lt in C. exists true, (- a). split; [reflexivity|lia].
    - apply Z.ltb_ge in C. exists false, a. split; [apply dec_sign, C|lia]. }
  destruct Sg as (neg & n & -> & Hn & En). rewrite (scan_dec n Hn). rewrite <- En. reflexivity.
Qed.
Lemma rat_round_trip q : Qred q = q -> rat_set_string (bigrat_to_string q) = Some q.
Proof.
  intros Rd. unfold bigrat_to_string. rewrite rat_ratio by lia. cbn [Z.eqb Z.to_pos]. f_equal. transitivity (Qred q); [|exact Rd]. f_equal. destruct q; reflexivity.
Qed.

(** ** what SetString makes of a number whose exponent does not fit *)
Lemma scan_exp_big sep t b x : exponent t b x -> ~ int64 x -> scan_exponent sep t = None.
Proof.
  intros H R. assert (K : forall base c l, base <> 0 -> decimal_text l x ->
     (if (c =? 101) || (c =? 69) then 10 else if (c =? 112) || (c =? 80) then 2 else 0) = base -> scan_exponent sep (c :: l) = None).
  { intros base c l N D E. rewrite (scan_exponent_unfold sep c l base N E). destruct (decimal_after l x D) as (neg & d & -> & (Nd & Dd) & Ex).
    rewrite <- (app_nil_r d) at 1. rewrite exp_run by exact Dd. rewrite exp_stop by exact Logic.I. destruct d as [|y d]; [congruence|].
    cbn [negb orb Z.eqb Pos.eqb]. change (b10 0 (y :: d)) with (in_base_ten (y :: d)). cbn zeta. rewrite <- Ex.
    destruct (x <? - 2 ^ 63) eqn:X1; [reflexivity|]. destruct (2 ^ 63 <=? x) eqn:X2; [reflexivity|]. apply Z.ltb_ge in X1. apply Z.leb_gt in X2.
    exfalso. apply R. split; assumption. }
  destruct H as [|c l x C D|c l x C D].
  - exfalso. apply R. split; vm_compute; congruence.
  - apply (K 10); try assumption; try discriminate; destruct C as [-> | ->]; reflexivity.
  - apply (K 2); try assumption; try discriminate; destruct C as [-> | ->]; reflexivity.
Qed.
Lemma rat_numeral_big s neg m f b x : numeral s neg m f b x -> ~ int64 x -> rat_set_string s = None.
Proof.
  intros H R. destruct (numeral_inv _ _ _ _ _ _ H) as (a & t & E & M & X & N & I1 & I2).
  rewrite (rat_set_string_no_slash s N (no_slash_numeral _ _ _ _ _ _ H)). unfold rat_set_string_main.
  rewrite E, (nat_scan10_true true (a ++ t) (numeral_no_prefix _ _ _ _ _ _ M X)), (scan_mantissa true a m f t M (exponent_stops _ _ _ _ X)), (scan_exp_big true t b x X R). reflexivity.
Qed.

(** ** big.Float.String *)
Lemma strip_spec l : exists j, l = strip l ++ repeat 0 j.
Proof.
  induction l as [|d r (j & IH)]; [exists 0%nat; reflexivity|]. cbn [strip]. destruct (strip r) as [|d' r'] eqn:E.
  - destruct (d =? 0) eqn:C; [apply Z.eqb_eq in C; subst d; exists (S j); cbn in *; congruence|exists j; cbn in *; congruence].
  - exists j. cbn in *. congruence.
Qed.
Lemma strip_last l : strip l = [] \/ exists a d, strip l = a ++ [d] /\ d <> 0.
Proof.
  induction l as [|d r IH]; [left; reflexivity|]. cbn [strip]. destruct (strip r) as [|d' r'] eqn:E.
  - destruct (d =? 0) eqn:C; [left; reflexivity|]. apply Z.eqb_neq in C. right. exists [], d. auto.
  - right. destruct IH as [IH|(a & x & IH & N)]; [discriminate|]. exists (d :: a), x. rewrite IH. auto.
Qed.
Lemma p10_pow n : p10 n = 10 ^ Z.of_nat n. Proof. reflexivity. Qed.
Lemma digit_at_all ds k : map (fun i => chr (digit_at ds (Z.of_nat i))) (seq 0 k) = map chr (firstn k ds ++ repeat 0 (k - length ds)).
Proof.
  rewrite <- (map_map (fun i => digit_at ds (Z.of_nat i)) chr). f_equal. revert ds. induction k as [|k IH]; intros ds; [reflexivity|].
  cbn [seq map]. rewrite <- seq_shift, map_map. destruct ds as [|d ds].
  - cbn [firstn app length]. replace (S k - 0)%nat with (S (k - 0)) by lia. cbn [repeat]. f_equal. specialize (IH []). cbn in IH. rewrite firstn_nil in IH. cbn [app] in IH. rewrite <- IH. apply map_ext. intros i.
    unfold digit_at. destruct (0 <=? Z.of_nat (S i)), (0 <=? Z.of_nat i); destruct (Z.to_nat (Z.of_nat (S i))), (Z.to_nat (Z.of_nat i)); reflexivity.
  - cbn [firstn app length Nat.sub]. f_equal. rewrite <- IH. apply map_ext. intros i. unfold digit_at.
    rewrite (proj2 (Z.leb_le 0 (Z.of_nat (S i)))), (proj2 (Z.leb_le 0 (Z.of_nat i))) by lia. rewrite !Nat2Z.id. reflexivity.
Qed.
Lemma digit_at_shift ds z : map (fun i => chr (digit_at ds (- Z.of_nat z + Z.of_nat i))) (seq 0 (z + length ds)) = map chr (repeat 0 z ++ ds).
Proof.
  rewrite seq_app, !map_app. f_equal.
  - transitivity (map (fun _ : nat => chr 0) (seq 0 z)).
    + apply map_ext_in. intros i I. apply in_seq in I. unfold digit_at. rewrite (proj2 (Z.leb_gt 0 _)) by lia. reflexivity.
    + generalize 0%nat. induction z as [|z IH]; intros s; [reflexivity|]. cbn. f_equal. apply IH.
  - transitivity (map (fun i => chr (digit_at ds (Z.of_nat i))) (seq 0 (length ds))).
    + rewrite <- (seq_shift' z) || idtac. replace (0 + z)%nat with (z + 0)%nat by lia.
      assert (G : forall n s, map (fun i => chr (digit_at ds (- Z.of_nat z + Z.of_nat i))) (seq (z + s) n) = map (fun i => chr (digit_at ds (Z.of_nat i))) (seq s n)).
      { induction n as [|n IH]; intros s; [reflexivity|]. cbn [seq map]. f_equal; [f_equal; f_equal; lia|]. replace (S (z + s)) with (z + S s)%nat by lia. apply IH. }
      apply G.
    + rewrite digit_at_all, firstn_all, Nat.sub_diag. cbn [repeat]. rewrite app_nil_r. reflexivity.
Qed.
Lemma zeros_ok n : digits_ok (repeat 0 n). Proof. induction n; constructor; [lia|assumption]. Qed.

(** what is written for the digits [ds] times 10^(dexp - length ds) *)
Definition ds_value (ds : list Z) (dexp : Z) : Q := (inject_Z (undec ds) * inject_Z 10 ^ (dexp - Z.of_nat (length ds)))%Q.
Definition writes (text : list Z) (ds : list Z) (dexp : Z) : Prop :=
  exists a t m f x, text = a ++ t /\ mantissa a m f /\ exponent t 10 x /\ (m = 0 <-> undec ds = 0) /\
    ((Z.abs (dexp - Z.of_nat (length ds)) <= 1000000 -> int64 x /\ Z.abs (- f + x) <= 1000000) /\
     (1000000 < Z.abs (dexp - Z.of_nat (length ds)) -> 1000000 < Z.abs (- f + x))) /\
    (inject_Z m * inject_Z 10 ^ (- f) * inject_Z 10 ^ x == ds_value ds dexp)%Q.
Lemma fmt_e_writes ds dexp : digits_ok ds -> ds <> [] -> (length ds <= 10)%nat -> writes (fmt_e ds dexp) ds dexp.
Proof.
  intros D N L. destruct ds as [|d r]; [congruence|]. clear N. unfold fmt_e. inversion D as [|? ? Hd Dr]; subst.
  set (x := dexp - 1).
  set (et := (if Z.abs x <? 10 then [48] else []) ++ map chr (dec (Z.abs x))).
  assert (Et : digit_string et /\ in_base_ten et = Z.abs x).
  { destruct (dec_string (Z.abs x) ltac:(lia)) as (A & B). unfold et. destruct (Z.abs x <? 10); [|cbn [app]; auto]. cbn [app]. split.
    - split; [discriminate|]. constructor; [lia|apply A].
    - unfold in_base_ten in *. cbn [fold_left]. exact B. }
  destruct Et as (Et1 & Et2).
  assert (X : exponent (101 :: (if x <? 0 then 45 else 43) :: et) 10 x).
  { apply exp_ten; [auto|]. destruct (x <? 0) eqn:C.
    - apply Z.ltb_lt in C. replace x with (- in_base_ten et) by lia. constructor. exact Et1.
    - apply Z.ltb_ge in C. replace x with (in_base_ten et) by lia. constructor. exact Et1. }
  assert (Dc : digits_only [chr d]) by (constructor; [unfold chr; lia|constructor]).
  exists (chr d :: match r with [] => [] | _ => 46 :: map chr r end), (101 :: (if x <? 0 then 45 else 43) :: et), (undec (d :: r)), (Z.of_nat (length r)), x.
  split; [destruct r; reflexivity|].
  assert (M : mantissa (chr d :: match r with [] => [] | _ => 46 :: map chr r end) (undec (d :: r)) (Z.of_nat (length r))).
  { destruct r as [|d2 r].
    - change [chr d] with (map chr [d]). rewrite <- in_base_chr. cbn [length]. apply mant_int. split; [discriminate|exact Dc].
    - rewrite <- in_base_chr. rewrite <- (map_length chr (d2 :: r)). apply (mant_point [chr d] (map chr (d2 :: r))); [exact Dc|apply chr_only, Dr|discriminate]. }
  split; [exact M|]. split; [exact X|]. split; [tauto|]. cbn [length] in *. rewrite Nat2Z.inj_succ.
  split; [split; unfold int64, x; intros; try split; lia|].
  unfold ds_value. rewrite <- Qmult_assoc, <- Qpower_plus by apply ten_nz. cbn [length]. rewrite Nat2Z.inj_succ. replace (- Z.of_nat (length r) + x) with (dexp - Z.succ (Z.of_nat (length r))) by (unfold x; lia). reflexivity.
Qed.
Lemma fmt_f_writes ds dexp P : digits_ok ds -> ds <> [] -> -3 <= dexp <= 10 -> (length ds <= 10)%nat ->
  P = Z.max (Z.of_nat (length ds) - dexp) 0 -> writes (fmt_f P ds dexp) ds dexp.
Proof.
  intros D N R L EP. unfold fmt_f. destruct (0 <? dexp) eqn:C.
  - apply Z.ltb_lt in C.
    set (l := map (fun i => chr (digit_at ds (Z.of_nat i))) (seq 0 (Z.to_nat dexp))).
    set (r := map (fun i => chr (digit_at ds (dexp + Z.of_nat i))) (seq 0 (Z.to_nat P))).
    assert (LR : l ++ r = map chr (ds ++ repeat 0 (Z.to_nat (dexp + P) - length ds))).
    { rewrite <- (firstn_all2 ds (n := Z.to_nat (dexp + P))) at 1 by lia. rewrite <- digit_at_all.
      replace (Z.to_nat (dexp + P)) with (Z.to_nat dexp + Z.to_nat P)%nat by lia. rewrite seq_app, map_app. unfold l, r. f_equal.
      assert (G : forall n s, map (fun i => chr (digit_at ds (dexp + Z.of_nat i))) (seq s n) = map (fun i => chr (digit_at ds (Z.of_nat i))) (seq (Z.to_nat dexp + s) n)).
      { induction n as [|n IH]; intros s; [reflexivity|]. cbn [seq map]. f_equal; [f_equal; f_equal; lia|]. rewrite IH. f_equal. f_equal. lia. }
      rewrite G. f_equal. f_equal. lia. }
    assert (DLR : digits_only (l ++ r)) by (rewrite LR; apply chr_only, Forall_app; split; [exact D|apply zeros_ok]).
    pose proof (proj1 (Forall_app _ _ _) DLR) as [Dl Dr].
    assert (Ll : length l = Z.to_nat dexp) by (unfold l; rewrite map_length, seq_length; reflexivity).
    assert (Lr : length r = Z.to_nat P) by (unfold r; rewrite map_length, seq_length; reflexivity).
    assert (Nl : l <> []) by (intros E; rewrite E in Ll; cbn in Ll; lia).
    set (j := (Z.to_nat (dexp + P) - length ds)%nat) in *.
    assert (U : in_base_ten (l ++ r) = undec ds * 10 ^ Z.of_nat j).
    { rewrite LR, in_base_chr, undec_app, undec_zeros, repeat_length, p10_pow. lia. }
    assert (T : 0 < 10 ^ Z.of_nat j) by (apply Z.pow_pos_nonneg; lia).
    assert (M : mantissa (l ++ if 0 <? P then 46 :: r else []) (undec ds * 10 ^ Z.of_nat j) P).
    { destruct (0 <? P) eqn:CP.
      - apply Z.ltb_lt in CP. rewrite <- U. replace P with (Z.of_nat (length r)) by lia. constructor; try assumption. intros E. apply app_eq_nil in E. tauto.
      - apply Z.ltb_ge in CP. assert (P = 0) as P0 by lia. rewrite app_nil_r. assert (r = []) as E0 by (destruct r; [reflexivity|cbn in Lr; lia]). rewrite E0, app_nil_r in U. rewrite <- U.
        rewrite P0. constructor. split; assumption. }
    exists (l ++ if 0 <? P then 46 :: r else []), [], (undec ds * 10 ^ Z.of_nat j), P, 0.
    split; [rewrite app_nil_r; reflexivity|]. split; [exact M|]. split; [constructor|]. split; [split; nia|].
    split; [split; [intros _; split; [split; vm_compute; congruence|lia]|intros; destruct ds; [congruence|cbn [length] in *; lia]]|].
    unfold ds_value. rewrite inject_Z_mult, Zpower_Qpower by lia. rewrite <- !Qmult_assoc, <- !Qpower_plus by apply ten_nz.
    replace (Z.of_nat j + (- P + 0)) with (dexp - Z.of_nat (length ds)) by lia. reflexivity.
  - apply Z.ltb_ge in C. assert (LP : 0 < Z.of_nat (length ds)) by (destruct ds; [congruence|cbn [length]; lia]).
    replace (0 <? P) with true by (symmetry; apply Z.ltb_lt; lia).
    set (z := Z.to_nat (- dexp)).
    assert (Em : map (fun i => chr (digit_at ds (dexp + Z.of_nat i))) (seq 0 (Z.to_nat P)) = map chr (repeat 0 z ++ ds)).
    { rewrite <- digit_at_shift. replace (Z.to_nat P) with (z + length ds)%nat by lia. apply map_ext. intros i. f_equal. f_equal. lia. }
    rewrite Em. assert (DD : digits_ok (repeat 0 z ++ ds)) by (apply Forall_app; split; [apply zeros_ok|exact D]).
    exists ([48] ++ 46 :: map chr (repeat 0 z ++ ds)), [], (undec ds), P, 0. split; [rewrite app_nil_r; reflexivity|].
    split.
    + replace (undec ds) with (in_base_ten ([48] ++ map chr (repeat 0 z ++ ds))).
      * replace P with (Z.of_nat (length (map chr (repeat 0 z ++ ds)))) by (rewrite map_length, app_length, repeat_length; lia).
        constructor; [constructor; [lia|constructor]|apply chr_only, DD|discriminate].
      * unfold in_base_ten. cbn [app fold_left]. change (in_base_ten (map chr (repeat 0 z ++ ds)) = undec ds). rewrite in_base_chr, undec_app, undec_zeros. lia.
    + split; [constructor|]. split; [tauto|]. split; [split; [intros _; split; [split; vm_compute; congruence|lia]|intros; lia]|].
      unfold ds_value. rewrite <- !Qmult_assoc, <- !Qpower_plus by apply ten_nz. replace (- P + 0) with (dexp - Z.of_nat (length ds)) by lia. reflexivity.
Qed.
Lemma format_g_writes ds dexp : digits_ok ds -> ds <> [] -> (length ds <= 10)%nat -> writes (format_g ds dexp) ds dexp.
Proof.
  intros D N L. unfold format_g. set (nd := Z.of_nat (length ds)).
  destruct ((dexp - 1 <? -4) || ((if (nd <? 10) && (dexp <=? nd) then nd else 10) <=? dexp - 1)) eqn:C; [apply fmt_e_writes; assumption|].
  rewrite orb_false_iff, Z.ltb_ge, Z.leb_gt in C. destruct C as [C1 C2].
  assert (dexp <= 10) by (destruct ((nd <? 10) && (dexp <=? nd)); lia).
  apply fmt_f_writes; try assumption; [lia|]. destruct (dexp <? 10) eqn:C; fold nd; [reflexivity|]. apply Z.ltb_ge in C. lia.
Qed.

Lemma undec_strip l : undec l = undec (strip l) * 10 ^ (Z.of_nat (length l) - Z.of_nat (length (strip l))).
Proof.
  destruct (strip_spec l) as (j & E). rewrite E at 1. rewrite undec_app, undec_zeros, repeat_length, p10_pow.
  replace (Z.of_nat (length l) - Z.of_nat (length (strip l))) with (Z.of_nat j); [lia|]. rewrite E at 1. rewrite app_length, repeat_length. lia.
Qed.
Lemma strip_len l : (length (strip l) <= length l)%nat.
Proof. destruct (strip_spec l) as (j & E). rewrite E at 2. rewrite app_length. lia. Qed.
Lemma strip_ok l : digits_ok l -> digits_ok (strip l).
Proof. intros D. destruct (strip_spec l) as (j & E). rewrite E in D. apply Forall_app in D. apply D. Qed.
(** the digits written for a number *)
Definition the_digits (m e : Z) : list Z * Z :=
  let '(n, d) := frac m e in
  let '(m10, e10) := round 10 10 None n d in
  (strip (dec m10), Z.of_nat (length (dec m10)) + e10).
Lemma the_digits_spec (neg : bool) m e : 0 < m -> let '(ds, dexp) := the_digits m e in
  digits_ok ds /\ ds <> [] /\ (length ds <= 10)%nat /\ undec ds mod 10 <> 0 /\ 0 < undec ds /\
  (ten_digits (Fin neg m e) == (if neg then - ds_value ds dexp else ds_value ds dexp))%Q.
Proof.
  intros Hm. unfold the_digits, ten_digits. rewrite (proj2 (Z.eqb_neq m 0)) by lia.
  pose proof (frac_spec m e) as (F2 & _ & F3 & _). destruct (frac m e) as [n d]. cbn [fst snd] in *.
  assert (Hn : 0 < n) by (apply F3; lia). assert (Hd : 0 < d) by exact F2.
  assert (T : 2 <= 10) by lia.
  pose proof (round_range 10 T 10 None n d ltac:(lia) Hn Hd) as R.
  pose proof (round_lower 10 T 10 None n d ltac:(lia) Hn Hd) as Lo.
  pose proof (round_e 10 10 None n d) as Re.
  destruct (round 10 10 None n d) as [m10 e10]. cbn [fst snd] in *.
  assert (Lo' : 10 ^ 9 <= m10) by (apply Lo; destruct Re as [Re|Re]; [exact Re|discriminate]). clear Lo Re.
  assert (M0 : 0 < m10) by lia.
  set (full := dec m10). pose proof (dec_ok m10 ltac:(lia)) as Df. fold full in Df. pose proof (undec_dec m10 ltac:(lia)) as Uf. fold full in Uf.
  pose proof (undec_strip full) as Us. pose proof (strip_ok full Df) as Ds.
  assert (Ne : strip full <> []) by (intros E; rewrite E in Us; change (undec []) with 0 in Us; lia).
  assert (Lf : (length (strip full) <= 10)%nat).
  { destruct (Z.eq_dec m10 (10 ^ 10)) as [E|N].
    - unfold full. rewrite E. vm_compute. lia.
    - pose proof (strip_len full). pose proof (proj2 (dec_len_le m10 10 ltac:(lia))) as W. fold full in W. assert (length full <= 10)%nat; [|lia]. apply W. rewrite p10_pow. change (Z.of_nat 10) with 10. lia. }
  assert (Pd : 0 < undec (strip full)).
  { pose proof (undec_bounds _ Ds). destruct (Z.eq_dec (undec (strip full)) 0) as [E|E]; [rewrite E in Us; lia|lia]. }
  split; [exact Ds|]. split; [exact Ne|]. split; [exact Lf|]. split.
  { destruct (strip_last full) as [E|(a & x & E & Nx)]; [congruence|]. rewrite E in *. apply Forall_app in Ds as (_ & Dx). apply Forall_inv in Dx.
    rewrite undec_app. change (p10 (length [x])) with 10. change (undec [x]) with x. rewrite Z.add_comm, Z.mod_add by lia. rewrite Z.mod_small by lia. exact Nx. }
  split; [exact Pd|].
  pose proof (scale_spec 10 T (- e10) (if neg then - m10 else m10) 1 ltac:(lia)) as S1.
  destruct (scale 10 (- e10) (if neg then - m10 else m10) 1) as [n' d']. destruct S1 as (D' & _ & E').
  rewrite Qred_correct. rewrite (Qmake_fr n' d' D'), E', fr_1, P_opp. unfold ds_value.
  assert (V : (inject_Z m10 * inject_Z 10 ^ e10 == inject_Z (undec (strip full)) * inject_Z 10 ^ (Z.of_nat (length full) + e10 - Z.of_nat (length (strip full))))%Q).
  { rewrite <- Uf, Us, inject_Z_mult. pose proof (strip_len full). rewrite Zpower_Qpower by lia. rewrite <- Qmult_assoc, <- Qpower_plus by apply ten_nz.
    replace (Z.of_nat (length full) - Z.of_nat (length (strip full)) + e10) with (Z.of_nat (length full) + e10 - Z.of_nat (length (strip full))) by lia. reflexivity. }
  assert (N10 : ~ (inject_Z 10 ^ e10 == 0)%Q) by (apply Qpower_not_0, ten_nz).
  destruct neg; rewrite <- V; [rewrite inject_Z_opp|]; field; exact N10.
Qed.
Lemma bigfloat_to_string_nz neg m e : m <> 0 -> bigfloat_to_string (Fin neg m e) = (if neg then [45] else []) ++ format_g (fst (the_digits m e)) (snd (the_digits m e)).
Proof.
  intros H. unfold bigfloat_to_string, the_digits. rewrite (proj2 (Z.eqb_neq m 0)) by exact H. destruct (frac m e) as [n d].
  destruct (round 10 10 None n d) as [m10 e10]. reflexivity.
Qed.
(** a number has one exponent when its digits do not end in zero *)
Lemma exponent_unique k E k' E' : k mod 10 <> 0 -> k' mod 10 <> 0 ->
  (inject_Z k * inject_Z 10 ^ E == inject_Z k' * inject_Z 10 ^ E')%Q -> E = E'.
Proof.
  assert (K : forall k E k' E', k mod 10 <> 0 -> (inject_Z k * inject_Z 10 ^ E == inject_Z k' * inject_Z 10 ^ E')%Q -> E' <= E).
  { clear. intros k E k' E' Hk Eq. destruct (Z_le_gt_dec E' E) as [L|G]; [exact L|exfalso].
    assert (X : (inject_Z k == inject_Z (k' * 10 ^ (E' - E)))%Q).
    { rewrite inject_Z_mult, Zpower_Qpower by lia. apply (Qmult_inj_r _ _ (inject_Z 10 ^ E)); [apply Qpower_not_0, ten_nz|]. rewrite Eq, <- Qmult_assoc, <- Qpower_plus by apply ten_nz.
      replace (E' - E + E) with E' by lia. reflexivity. }
    apply (proj1 (inject_Z_injective _ _)) in X. apply Hk. rewrite X. replace (E' - E) with (1 + (E' - E - 1)) by lia. rewrite Z.pow_add_r by lia. change (10 ^ 1) with 10.
    rewrite Z.mul_assoc, (Z.mul_comm k'), <- Z.mul_assoc, Z.mul_comm. apply Z.mod_mul. lia. }
  intros H1 H2 Eq. apply Z.le_antisymm; [apply (K k' E' k E)|apply (K k E k' E')]; try assumption. symmetry. exact Eq.
Qed.
Lemma float_text x k E : finite x -> nonneg_mantissa x -> (ten_digits x == inject_Z k * inject_Z 10 ^ E)%Q -> k mod 10 <> 0 \/ k = 0 ->
  (Z.abs E <= 1000000 \/ k = 0 -> rat_set_string (bigfloat_to_string x) = Some (ten_digits x)) /\
  (1000000 < Z.abs E -> k <> 0 -> rat_set_string (bigfloat_to_string x) = None).
Proof.
  destruct x as [|?|neg m e]; try (intros []; fail). intros _ Hm Ek Hk. cbn in Hm. destruct (Z.eq_dec m 0) as [->|M0].
  - unfold ten_digits in *. cbn [Z.eqb] in *. assert (k = 0) as ->.
    { assert (X : (inject_Z k == 0)%Q) by (apply (Qmult_inj_r _ _ (inject_Z 10 ^ E)); [apply Qpower_not_0, ten_nz|]; rewrite <- Ek; ring). apply inject_Z_0 in X. exact X. }
    split; [intros _|congruence]. destruct neg; reflexivity.
  - pose proof (the_digits_spec neg m e ltac:(lia)) as S1. rewrite (bigfloat_to_string_nz neg m e M0). destruct (the_digits m e) as [ds dexp]. cbn [fst snd].
    destruct S1 as (D & N & L & Mod & Pd & V). destruct (format_g_writes ds dexp D N L) as (a & t & m' & f & x & Et & M & X & Z0 & (R1 & R2) & Vx).
    rewrite Et. assert (Nu : numeral ((if neg then [45] else []) ++ a ++ t) neg m' f 10 x) by (destruct neg; [apply (num_minus a t)|apply (num_plain a t)]; assumption).
    assert (NV : (numeral_value neg m' f 10 x == ten_digits (Fin neg m e))%Q).
    { rewrite V. unfold numeral_value. destruct neg; [|exact Vx]. rewrite inject_Z_opp, <- Vx. ring. }
    assert (Hk0 : k <> 0).
    { intros ->. rewrite V in Ek. change (inject_Z 0) with 0%Q in Ek. rewrite Qmult_0_l in Ek. unfold ds_value in Ek.
      assert (X0 : (inject_Z (undec ds) == 0)%Q).
      { apply (Qmult_inj_r _ _ (inject_Z 10 ^ (dexp - Z.of_nat (length ds)))); [apply Qpower_not_0, ten_nz|]. destruct neg; [rewrite <- (Qopp_involutive (inject_Z (undec ds) * _)), Ek; ring|rewrite Ek; ring]. }
      apply inject_Z_0 in X0. lia. }
    assert (EE : dexp - Z.of_nat (length ds) = E).
    { rewrite V in Ek. unfold ds_value in Ek. destruct neg.
      - apply (exponent_unique (undec ds) _ (- k) E); [exact Mod| |].
        + destruct Hk as [Hk|Hk]; [|congruence]. intros Y. apply Hk. apply Z.mod_divide in Y; [|lia]. apply Z.mod_divide; [lia|]. rewrite Z.divide_opp_r in Y. exact Y.
        + rewrite inject_Z_opp. rewrite <- (Qopp_involutive (inject_Z (undec ds) * _)), Ek. ring.
      - apply (exponent_unique (undec ds) _ k E); [exact Mod|destruct Hk; congruence|exact Ek]. }
    rewrite EE in *. assert (Nm : m' <> 0) by lia. split.
    + intros [HE|HE]; [|congruence]. destruct (R1 HE) as [I64 Ex]. destruct (rat_numeral _ _ _ _ _ _ Nu I64) as [K _].
      rewrite K.
      * f_equal. rewrite <- (ConvFloatProofs3.ten_digits_red (Fin neg m e)). apply Qred_complete, NV.
      * right. cbn [Z.eqb Pos.eqb]. lia.
    + intros HE _. destruct (Z_le_dec (- 2 ^ 63) x) as [I1|I1]; [destruct (Z_lt_dec x (2 ^ 63)) as [I2|I2]|].
      * destruct (rat_numeral _ _ _ _ _ _ Nu (conj I1 I2)) as [_ K]. apply K. specialize (R2 HE). unfold rat_range. cbn [Z.eqb Pos.eqb]. lia.
      * apply (rat_numeral_big _ _ _ _ _ _ Nu). unfold int64. lia.
      * apply (rat_numeral_big _ _ _ _ _ _ Nu). unfold int64. lia.
Qed.
(** every ten-digit number has that form *)
Lemma ten_form x : nonneg_mantissa x -> exists k E, (ten_digits x == inject_Z k * inject_Z 10 ^ E)%Q /\ (k mod 10 <> 0 \/ k = 0).
Proof.
  destruct x as [|?|neg m e]; try (intros _; exists 0, 0; split; [cbn; ring|auto]). intros Hm. cbn in Hm. destruct (Z.eq_dec m 0) as [->|M0]; [exists 0, 0; split; [cbn; ring|auto]|].
  pose proof (the_digits_spec neg m e ltac:(lia)) as S1. destruct (the_digits m e) as [ds dexp]. destruct S1 as (D & N & L & Mod & Pd & V).
  exists (if neg then - undec ds else undec ds), (dexp - Z.of_nat (length ds)). split.
  - rewrite V. unfold ds_value. destruct neg; [rewrite inject_Z_opp; ring|reflexivity].
  - left. destruct neg; [|exact Mod]. intros Y. apply Mod. apply Z.mod_divide in Y; [|lia]. apply Z.mod_divide; [lia|]. rewrite Z.divide_opp_r in Y. exact Y.
Qed.

(** ** float64 values lie well inside the range *)
Lemma ten_le_pow e : 0 <= e -> (inject_Z 2 ^ e <= inject_Z 10 ^ e)%Q.
Proof. intros H. rewrite <- !Zpower_Qpower by exact H. rewrite <- Zle_Qle. apply Z.pow_le_mono_l. lia. Qed.
Lemma Qpower_2_pos e : (0 < inject_Z 2 ^ e)%Q. Proof. apply Qpower_0_lt. reflexivity. Qed.
Lemma Qpower_10_pos e : (0 < inject_Z 10 ^ e)%Q. Proof. apply Qpower_0_lt. reflexivity. Qed.
Lemma Qabs_injZ z : (Qabs (inject_Z z) == inject_Z (Z.abs z))%Q. Proof. reflexivity. Qed.
Lemma exp_of_float64 x k E q : is_float f64 x -> denotes x q -> ~ (q == 0)%Q -> (ten_digits x == inject_Z k * inject_Z 10 ^ E)%Q -> k mod 10 <> 0 -> Z.abs E <= 2000.
Proof.
  intros Fx D Nq Ek Hk. assert (Hm : nonneg_mantissa x) by (destruct x as [| |neg m e]; cbn in *; try exact Logic.I; lia).
  pose proof (ConvFloatProofs4.ten_rel_error x q Hm D) as Re. pose proof (ConvFloatProofs3.ten_digits_spec x q Hm D) as [(m' & e' & Hm' & Em') _].
  set (t := ten_digits x) in *.
  (* bounds of q *)
  assert (Bq : (inject_Z 2 ^ (-1074) <= Qabs q /\ Qabs q < inject_Z 2 ^ 1024)%Q).
  { destruct x as [| |neg m e]; cbn [denotes is_float] in *; try tauto. destruct Fx as [[M1 M2] [E1 E2]]. cbn [fp femin femax f64] in *.
    assert (M0 : 0 < m). { destruct (Z.eq_dec m 0) as [->|]; [|lia]. exfalso. apply Nq. rewrite D. unfold digits. destruct neg; change (inject_Z _) with 0%Q at 1; ring. }
    assert (Aq : (Qabs q == inject_Z m * inject_Z 2 ^ e)%Q).
    { rewrite D. unfold digits. rewrite Qabs_Qmult, Qabs_injZ. rewrite (Qabs_pos (inject_Z 2 ^ e)) by (apply Qlt_le_weak, Qpower_2_pos).
      replace (Z.abs (if neg then - m else m)) with m by (destruct neg; lia). reflexivity. }
    rewrite Aq. split.
    - apply Qle_trans with (1 * inject_Z 2 ^ e)%Q.
      + rewrite Qmult_1_l. apply Qpower_le_compat_l; [exact E1|]. discriminate.
      + apply Qmult_le_compat_r; [change 1%Q with (inject_Z 1); rewrite <- Zle_Qle; lia|apply Qlt_le_weak, Qpower_2_pos].
    - apply Qlt_le_trans with (inject_Z (2 ^ 53) * inject_Z 2 ^ e)%Q.
      + apply Qmult_lt_compat_r; [apply Qpower_2_pos|]. rewrite <- Zlt_Qlt. exact M2.
      + rewrite Zpower_Qpower by lia. rewrite <- Qpower_plus by discriminate. apply Qpower_le_compat_l; [lia|discriminate]. }
  destruct Bq as [B1 B2].
  (* bounds of t *)
  assert (Bt : (inject_Z 2 ^ (-1075) <= Qabs t /\ Qabs t < inject_Z 2 ^ 1025)%Q).
  { assert (Re' : (Qabs (q - t) * 2 <= Qabs q)%Q).
    { apply Qle_trans with (Qabs (q - t) * inject_Z (2 * 10 ^ 9))%Q; [|exact Re]. rewrite (Qmult_comm _ 2), (Qmult_comm _ (inject_Z _)).
      apply Qmult_le_compat_r; [discriminate|apply Qabs_nonneg]. }
    pose proof (Qabs_triangle q (t - q)) as T1. pose proof (Qabs_triangle t (q - t)) as T2.
    assert (X1 : (q + (t - q) == t)%Q) by ring. assert (X2 : (t + (q - t) == q)%Q) by ring. rewrite X1 in T1. rewrite X2 in T2.
    assert (X3 : (Qabs (t - q) == Qabs (q - t))%Q) by (rewrite Qabs_Qminus; reflexivity). rewrite X3 in T1.
    assert (Pa : (inject_Z 2 ^ (-1075) * 2 == inject_Z 2 ^ (-1074))%Q).
    { change (inject_Z 2 ^ (-1075) * inject_Z 2 ^ 1 == inject_Z 2 ^ (-1074))%Q. rewrite <- Qpower_plus by discriminate. reflexivity. }
    assert (Pb : (inject_Z 2 ^ 1024 * 2 == inject_Z 2 ^ 1025)%Q).
    { change (inject_Z 2 ^ 1024 * inject_Z 2 ^ 1 == inject_Z 2 ^ 1025)%Q. rewrite <- Qpower_plus by discriminate. reflexivity. }
    rewrite <- Pa in B1. rewrite <- Pb. clear Pa Pb X1 X2 X3 Ek Em' Re D Nq. revert B1 B2 T1 T2 Re'. generalize (inject_Z 2 ^ (-1075))%Q, (inject_Z 2 ^ 1024)%Q, (Qabs q), (Qabs t), (Qabs (q - t)).
    intros a b c d e0 B1 B2 T1 T2 Re'. split; lra. }
  destruct Bt as [T1 T2].
  assert (k0 : k <> 0) by (intros ->; apply Hk; reflexivity).
  assert (At : (Qabs t == inject_Z (Z.abs k) * inject_Z 10 ^ E)%Q).
  { rewrite Ek, Qabs_Qmult, Qabs_injZ, (Qabs_pos (inject_Z 10 ^ E)) by (apply Qlt_le_weak, Qpower_10_pos). reflexivity. }
  (* upper bound of E *)
  assert (U : E <= 1025).
  { destruct (Z_le_gt_dec E 1025) as [L|G]; [exact L|exfalso].
    assert (X : (inject_Z 2 ^ 1025 <= Qabs t)%Q).
    { rewrite At. apply Qle_trans with (1 * inject_Z 10 ^ E)%Q.
      - rewrite Qmult_1_l. apply Qle_trans with (inject_Z 10 ^ 1025)%Q; [apply ten_le_pow; lia|]. apply Qpower_le_compat_l; [lia|discriminate].
      - apply Qmult_le_compat_r; [change 1%Q with (inject_Z 1); rewrite <- Zle_Qle; lia|apply Qlt_le_weak, Qpower_10_pos]. }
    apply (Qlt_irrefl (inject_Z 2 ^ 1025)). eapply Qle_lt_trans; [exact X|exact T2]. }
  (* k has ten digits *)
  assert (K10 : Z.abs k < 10 ^ 10).
  { assert (Le : e' <= E).
    { destruct (Z_le_gt_dec e' E) as [L|G]; [exact L|exfalso].
      assert (X : (inject_Z k == inject_Z (m' * 10 ^ (e' - E)))%Q).
      { rewrite inject_Z_mult, Zpower_Qpower by lia. apply (Qmult_inj_r _ _ (inject_Z 10 ^ E)); [apply Qpower_not_0, ten_nz|].
        rewrite <- Ek, Em'. unfold digits. rewrite <- Qmult_assoc, <- Qpower_plus by apply ten_nz. replace (e' - E + E) with e' by lia. reflexivity. }
      apply (proj1 (inject_Z_injective _ _)) in X. apply Hk. rewrite X. replace (e' - E) with (1 + (e' - E - 1)) by lia. rewrite Z.pow_add_r by lia. change (10 ^ 1) with 10.
      rewrite Z.mul_assoc, (Z.mul_comm m'), <- Z.mul_assoc, Z.mul_comm. apply Z.mod_mul. lia. }
    assert (X : (inject_Z (k * 10 ^ (E - e')) == inject_Z m')%Q).
    { rewrite inject_Z_mult, Zpower_Qpower by lia. apply (Qmult_inj_r _ _ (inject_Z 10 ^ e')); [apply Qpower_not_0, ten_nz|].
      rewrite <- Qmult_assoc, <- Qpower_plus by apply ten_nz. replace (E - e' + e') with E by lia. rewrite <- Ek. exact Em'. }
    apply (proj1 (inject_Z_injective _ _)) in X. assert (0 < 10 ^ (E - e')) by (apply Z.pow_pos_nonneg; lia). assert (Z.abs m' = Z.abs k * 10 ^ (E - e')) by (rewrite <- X, Z.abs_mul; lia). nia. }
  (* lower bound of E *)
  assert (Lo : -1085 <= E).
  { destruct (Z_le_gt_dec (-1085) E) as [L|G]; [exact L|exfalso].
    assert (X : (Qabs t < inject_Z 2 ^ (-1075))%Q).
    { rewrite At. apply Qlt_le_trans with (inject_Z (10 ^ 10) * inject_Z 10 ^ E)%Q; [apply Qmult_lt_compat_r; [apply Qpower_10_pos|rewrite <- Zlt_Qlt; exact K10]|].
      rewrite Zpower_Qpower by lia. rewrite <- Qpower_plus by apply ten_nz. apply Qle_trans with (inject_Z 10 ^ (-1075))%Q; [apply Qpower_le_compat_l; [lia|discriminate]|].
      change (-1075) with (- (1075)). rewrite !Qpower_opp. apply Qle_shift_inv_l; [apply Qpower_2_pos|]. rewrite Qmult_comm. apply Qle_shift_div_r; [apply Qpower_10_pos|]. rewrite Qmult_1_l. apply ten_le_pow. lia. }
    apply (Qlt_irrefl (Qabs t)). eapply Qlt_le_trans; [exact X|exact T1]. }
  lia.
Qed.
