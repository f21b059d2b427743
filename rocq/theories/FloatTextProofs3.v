(** The decimal rendering. *)
From Coq Require Import ZArith List QArith Qpower Qabs Bool Lia Lqa.
From Verif Require Import Base Float FloatSpec FloatProofs FloatProofs2 ConvFloat ConvFloatSpec Literal LiteralSpec LiteralProofs LiteralProofs2 LiteralProofs3
  Decimal DecimalSpec DecDigits FloatText FloatTextSpec FloatTextProofs FloatTextProofs2.
Import ListNotations.
Close Scope Q_scope.
Open Scope Z_scope.

(** ** one text for one number *)
Lemma b10_lin l : forall z, b10 z l = z * 10 ^ Z.of_nat (length l) + in_base_ten l.
Proof.
  change in_base_ten with (b10 0). induction l as [|c l IH]; intros z; [cbn; lia|]. unfold b10 in *. cbn [fold_left length]. rewrite IH, (IH (0 * 10 + (c - 48))).
  rewrite Nat2Z.inj_succ, Z.pow_succ_r by lia. ring.
Qed.
Lemma ibt_app a b : in_base_ten (a ++ b) = in_base_ten a * 10 ^ Z.of_nat (length b) + in_base_ten b.
Proof. change (b10 0 (a ++ b) = in_base_ten a * 10 ^ Z.of_nat (length b) + in_base_ten b). rewrite b10_app, b10_lin. reflexivity. Qed.
Lemma ibt_bounds l : digits_only l -> 0 <= in_base_ten l < 10 ^ Z.of_nat (length l).
Proof.
  intros H. induction l as [|c l IH] using rev_ind; [cbn; lia|]. apply Forall_app in H as [Hl Hc]. apply Forall_inv in Hc. specialize (IH Hl).
  rewrite ibt_app, app_length, Nat2Z.inj_add. cbn [length]. change (Z.of_nat 1) with 1. rewrite Z.pow_add_r by lia. change (10 ^ 1) with 10.
  change (in_base_ten [c]) with (0 * 10 + (c - 48)). lia.
Qed.
Lemma ibt_inj a : forall b, length a = length b -> digits_only a -> digits_only b -> in_base_ten a = in_base_ten b -> a = b.
Proof.
  induction a as [|x a IH] using rev_ind; intros b L Ha Hb E; [destruct b; [reflexivity|discriminate]|].
  destruct b as [|y b _] using rev_ind; [rewrite app_length in L; cbn in L; lia|].
  rewrite !app_length in L. cbn in L. apply Forall_app in Ha as [Ha Hx], Hb as [Hb Hy]. apply Forall_inv in Hx, Hy.
  rewrite !ibt_app in E. cbn [length] in E. change (Z.of_nat 1) with 1 in E. change (10 ^ 1) with 10 in E.
  change (in_base_ten [x]) with (0 * 10 + (x - 48)) in E. change (in_base_ten [y]) with (0 * 10 + (y - 48)) in E.
  rewrite (IH b); try assumption; try lia. f_equal. f_equal. lia.
Qed.
Lemma whole_lower l : whole l -> (l = [48] /\ in_base_ten l = 0) \/ (10 ^ (Z.of_nat (length l) - 1) <= in_base_ten l).
Proof.
  intros [[N D] [->|H]]; [left; split; reflexivity|right]. destruct l as [|c l]; [congruence|]. cbn [hd] in H. inversion D as [|? ? Hc Dl]; subst.
  change (c :: l) with ([c] ++ l). rewrite ibt_app. cbn [app length]. rewrite Nat2Z.inj_succ. replace (Z.succ (Z.of_nat (length l)) - 1) with (Z.of_nat (length l)) by lia.
  pose proof (ibt_bounds l Dl). change (in_base_ten [c]) with (0 * 10 + (c - 48)). nia.
Qed.
Lemma whole_inj a b : whole a -> whole b -> in_base_ten a = in_base_ten b -> a = b.
Proof.
  intros A B E. pose proof (whole_lower a A) as LA. pose proof (whole_lower b B) as LB. destruct A as [[NA DA] _], B as [[NB DB] _].
  pose proof (ibt_bounds a DA) as BA. pose proof (ibt_bounds b DB) as BB.
  assert (Pos : forall k, 0 < 10 ^ Z.of_nat k) by (intros; apply Z.pow_pos_nonneg; lia).
  assert (Pos1 : forall l : list Z, l <> [] -> 0 < 10 ^ (Z.of_nat (length l) - 1)) by (intros l Nl; apply Z.pow_pos_nonneg; destruct l; [congruence|cbn [length]; lia|congruence|cbn [length]; lia]).
  destruct LA as [[-> A0]|LA], LB as [[-> B0]|LB]; [reflexivity| | |].
  - pose proof (Pos1 b NB). lia.
  - pose proof (Pos1 a NA). lia.
  - assert (length a = length b); [|apply ibt_inj; assumption].
    assert (Mono : forall i j : nat, 10 ^ (Z.of_nat i - 1) < 10 ^ Z.of_nat j -> (i <= j)%nat).
    { intros i j X. destruct (le_lt_dec i j) as [|G]; [assumption|]. exfalso. assert (10 ^ Z.of_nat j <= 10 ^ (Z.of_nat i - 1)) by (apply Z.pow_le_mono_r; lia). lia. }
    apply Nat.le_antisymm; apply Mono; lia.
Qed.
Lemma plain_facts t m f : plain t m f -> exists l r, whole l /\ digits_only r /\ m = in_base_ten (l ++ r) /\ f = Z.of_nat (length r) /\
  t = l ++ (match r with [] => [] | _ => 46 :: r end) /\ (f = 0 \/ m mod 10 <> 0).
Proof.
  intros [l W|l r c W D C].
  - exists l, []. split; [exact W|]. split; [constructor|]. split; [rewrite app_nil_r; reflexivity|]. split; [reflexivity|]. split; [symmetry; apply app_nil_r|left; reflexivity].
  - exists l, (r ++ [c]). split; [exact W|]. split; [apply Forall_app; split; [exact D|constructor; [lia|constructor]]|]. split; [reflexivity|].
    split; [rewrite app_length; cbn [length]; lia|]. split; [destruct r; reflexivity|right].
    rewrite app_assoc, ibt_app. cbn [length]. change (Z.of_nat 1) with 1. change (10 ^ 1) with 10. change (in_base_ten [c]) with (0 * 10 + (c - 48)).
    rewrite Z.add_comm, Z.mod_add by lia. rewrite Z.mod_small; lia.
Qed.
Lemma Q10_div a b e : (inject_Z a == inject_Z b * inject_Z 10 ^ e)%Q -> 0 <= e -> a = b * 10 ^ e.
Proof. intros E H. rewrite <- Zpower_Qpower in E by exact H. rewrite <- inject_Z_mult in E. unfold Qeq in E. cbn in E. lia. Qed.
Lemma same_scaled m f m' f' : (f = 0 \/ m mod 10 <> 0) -> (f' = 0 \/ m' mod 10 <> 0) -> 0 <= f -> 0 <= f' ->
  (inject_Z m * inject_Z 10 ^ (- f) == inject_Z m' * inject_Z 10 ^ (- f'))%Q -> m = m' /\ f = f'.
Proof.
  intros C C' H H' E.
  assert (W : forall a e a' e', (inject_Z a * inject_Z 10 ^ (- e) == inject_Z a' * inject_Z 10 ^ (- e'))%Q -> e <= e' -> a' = a * 10 ^ (e' - e)).
  { intros a e a' e' X L. apply Q10_div; [|lia]. replace (e' - e) with (e' + - e) by lia. rewrite Qpower_plus by apply ten_nz.
    transitivity (inject_Z 10 ^ e' * (inject_Z a' * inject_Z 10 ^ (- e')))%Q; [rewrite Qpower_opp; field; apply Qpower_not_0, ten_nz|]. rewrite <- X. ring. }
  assert (V : forall a e a', a' = a * 10 ^ e -> 0 < e -> a' mod 10 = 0).
  { intros a e a' -> L. replace e with (1 + (e - 1)) by lia. rewrite Z.pow_add_r by lia. replace (a * (10 ^ 1 * 10 ^ (e - 1))) with ((a * 10 ^ (e - 1)) * 10) by (change (10 ^ 1) with 10; ring). apply Z.mod_mul. lia. }
  destruct (Z.lt_trichotomy f f') as [L|[L|L]].
  - exfalso. apply W in E; [|lia]. apply V in E; [|lia]. destruct C'; [lia|contradiction].
  - subst f'. apply W in E; [|lia]. rewrite Z.sub_diag in E. lia.
  - exfalso. symmetry in E. apply W in E; [|lia]. apply V in E; [|lia]. destruct C; [lia|contradiction].
Qed.
Lemma plain_inj t m f t' m' f' : plain t m f -> plain t' m' f' ->
  (inject_Z m * inject_Z 10 ^ (- f) == inject_Z m' * inject_Z 10 ^ (- f'))%Q -> t = t'.
Proof.
  intros P P' E. destruct (plain_facts _ _ _ P) as (l & r & W & D & Em & Ef & Et & C). destruct (plain_facts _ _ _ P') as (l' & r' & W' & D' & Em' & Ef' & Et' & C').
  destruct (same_scaled m f m' f' C C' ltac:(lia) ltac:(lia) E) as [E1 E2].
  assert (L : length r = length r') by lia. rewrite Em, Em', !ibt_app, <- L in E1. pose proof (ibt_bounds r D) as B. pose proof (ibt_bounds r' D') as B'. rewrite <- L in B'.
  assert (X : in_base_ten l = in_base_ten l' /\ in_base_ten r = in_base_ten r') by (apply (Z.div_mod_unique (10 ^ Z.of_nat (length r))); lia).
  destruct X as [X1 X2]. rewrite Et, Et', (whole_inj l l' W W' X1), (ibt_inj r r' L D D' X2). reflexivity.
Qed.
Lemma plain_nonneg t m f : plain t m f -> 0 <= m /\ 0 <= f /\ exists c r, t = c :: r /\ 48 <= c <= 57.
Proof.
  intros P. destruct (plain_facts _ _ _ P) as (l & r & W & D & Em & Ef & Et & C). destruct W as [[N Dl] _].
  split; [rewrite Em; apply ibt_bounds, Forall_app; split; assumption|]. split; [lia|]. destruct l as [|c l]; [congruence|]. exists c. eexists. split; [rewrite Et; reflexivity|].
  apply (Forall_inv Dl).
Qed.
(** a text stands for one number *)
Lemma split_at_point a b a' b' : digits_only a -> digits_only a' -> a ++ 46 :: b = a' ++ 46 :: b' -> a = a' /\ b = b'.
Proof.
  revert a'. induction a as [|c a IH]; intros a' D D' E.
  - destruct a' as [|c' a']; [injection E; auto|]. injection E as <- _. apply Forall_inv in D'. lia.
  - destruct a' as [|c' a']; [injection E as -> _; apply Forall_inv in D; lia|]. injection E as <- E. inversion D; inversion D'; subst. destruct (IH a') as [-> ->]; auto.
Qed.
Lemma no_point l : digits_only l -> ~ In 46 l.
Proof. intros D I. unfold digits_only in D. rewrite Forall_forall in D. specialize (D 46 I). cbn in D. lia. Qed.
Lemma plain_fun t m f m' f' : plain t m f -> plain t m' f' -> m = m' /\ f = f'.
Proof.
  intros P P'. destruct P as [l W|l r c W D C]; inversion P' as [l' W' E1 E2 E3|l' r' c' W' D' C' E1 E2 E3]; subst.
  - auto.
  - exfalso. destruct W as [[_ Dl] _]. apply (no_point _ Dl). apply in_or_app. right. left. reflexivity.
  - exfalso. destruct W' as [[_ Dl] _]. apply (no_point _ Dl). apply in_or_app. right. left. reflexivity.
  - destruct W as [[_ Dl] _], W' as [[_ Dl'] _]. destruct (split_at_point _ _ _ _ Dl' Dl E1) as [-> X]. apply app_inj_tail in X. destruct X as [-> ->]. auto.
Qed.

(** ** the rendering *)
Lemma whole_dec n : 0 <= n -> whole (map chr (dec n)) /\ in_base_ten (map chr (dec n)) = n.
Proof.
  intros H. destruct (dec_string n H) as [A B]. split; [|exact B]. split; [exact A|].
  destruct (Z.eq_dec n 0) as [->|N]; [left; reflexivity|right]. pose proof (dec_head n ltac:(lia)) as Hh. pose proof (dec_ok n H) as Ok. pose proof (dec_nonempty n H).
  destruct (dec n) as [|x r]; [congruence|]. cbn. apply Forall_inv in Ok. unfold chr. destruct x; cbn in *; try lia.
Qed.
Lemma seq_map_shift (h : Z -> Z) a k : 0 <= a -> map (fun i => h (a + Z.of_nat i)) (seq 0 k) = map (fun i => h (Z.of_nat i)) (seq (Z.to_nat a) k).
Proof.
  intros Ha. assert (G : forall n s, map (fun i => h (a + Z.of_nat i)) (seq s n) = map (fun i => h (Z.of_nat i)) (seq (Z.to_nat a + s) n)).
  { induction n as [|n IH]; intros s; [reflexivity|]. cbn [seq map]. f_equal; [f_equal; lia|]. rewrite IH. f_equal. f_equal. lia. }
  rewrite G. f_equal. f_equal. lia.
Qed.
Lemma digit_at_tail ds k : (k <= length ds)%nat -> map (fun i => chr (digit_at ds (Z.of_nat k + Z.of_nat i))) (seq 0 (length ds - k)) = map chr (skipn k ds).
Proof.
  intros L. rewrite (seq_map_shift (fun z => chr (digit_at ds z))) by lia. rewrite Nat2Z.id.
  assert (A : map (fun i => chr (digit_at ds (Z.of_nat i))) (seq 0 (length ds)) = map chr ds).
  { rewrite digit_at_all, firstn_all, Nat.sub_diag. cbn [repeat]. rewrite app_nil_r. reflexivity. }
  assert (B : map (fun i => chr (digit_at ds (Z.of_nat i))) (seq 0 k) = map chr (firstn k ds)).
  { rewrite digit_at_all. replace (k - length ds)%nat with 0%nat by lia. cbn [repeat]. rewrite app_nil_r. reflexivity. }
  replace (length ds) with (k + (length ds - k))%nat in A at 1 by lia. rewrite seq_app, map_app in A. cbn [Nat.add] in A. rewrite B in A.
  rewrite <- (firstn_skipn k ds) in A at 3. rewrite map_app in A. apply app_inv_head in A. exact A.
Qed.
Lemma fmt_f_plain c g : 0 < c ->
  let full := dec c in let ds := strip full in let dp := Z.of_nat (length full) + g in
  exists m f, plain (fmt_f (Z.max (Z.of_nat (length ds) - dp) 0) ds dp) m f /\ (inject_Z m * inject_Z 10 ^ (- f) == digits 10 c g)%Q /\
    f <= Z.max 0 (- g) /\ 0 < m /\ m <= c * 10 ^ (Z.max 0 g).
Proof.
  intros Hc full ds dp. pose proof (undec_dec c ltac:(lia)) as Uf. pose proof (dec_ok c ltac:(lia)) as Df. pose proof (dec_head c Hc) as Hf. fold full in Uf, Df, Hf.
  pose proof (undec_strip full) as Us. pose proof (strip_ok full Df) as Ds. pose proof (strip_len full) as Ls. fold ds in Us, Ds, Ls.
  assert (Ne : ds <> []) by (intros E; rewrite E in Us; change (undec []) with 0 in Us; lia).
  assert (Pd : 0 < undec ds). { pose proof (undec_bounds _ Ds). destruct (Z.eq_dec (undec ds) 0) as [E|E]; [rewrite E in Us; lia|lia]. }
  destruct (strip_last full) as [E|(a & x & Ea & Nx)]; [fold ds in E; congruence|]. fold ds in Ea.
  assert (Hx : 0 <= x <= 9) by (rewrite Ea in Ds; apply Forall_app in Ds as [_ Dx]; apply (Forall_inv Dx)).
  assert (Da : digits_ok a) by (rewrite Ea in Ds; apply Forall_app in Ds; apply Ds).
  assert (Hh : match ds with 0 :: _ => False | _ => True end).
  { destruct (strip_spec full) as (j & Ej). fold ds in Ej. rewrite Ej in Hf. destruct ds as [|y ds']; [congruence|]. exact Hf. }
  set (L := Z.of_nat (length full)) in *. set (s := Z.of_nat (length ds)) in *.
  assert (Val : forall e, (inject_Z (undec ds) * inject_Z 10 ^ (L - s + e) == digits 10 c e)%Q).
  { intros e. unfold digits. rewrite <- Uf, Us, inject_Z_mult, Zpower_Qpower by lia. rewrite <- Qmult_assoc, <- Qpower_plus by apply ten_nz. reflexivity. }
  assert (Pc : forall e, 0 <= e -> 0 < 10 ^ e) by (intros; apply Z.pow_pos_nonneg; lia).
  assert (Le : undec ds <= c) by (pose proof (Pc (L - s) ltac:(lia)); nia).
  assert (Le' : undec ds <= c * 10 ^ Z.max 0 g) by (pose proof (Pc (Z.max 0 g) ltac:(lia)); nia).
  unfold fmt_f. destruct (0 <? dp) eqn:C.
  - apply Z.ltb_lt in C. rewrite digit_at_all. destruct (Z_le_gt_dec s dp) as [G|G].
    + (* a whole number *)
      rewrite (Z.max_r _ 0) by lia. cbn [Z.ltb Z.compare]. rewrite app_nil_r. rewrite firstn_all2 by lia.
      exists (undec ds * 10 ^ (dp - s)), 0.
      assert (U : in_base_ten (map chr (ds ++ repeat 0 (Z.to_nat dp - length ds))) = undec ds * 10 ^ (dp - s)).
      { rewrite in_base_chr, undec_app, undec_zeros, repeat_length, p10_pow. replace (Z.of_nat (Z.to_nat dp - length ds)) with (dp - s) by lia. lia. }
      split.
      { rewrite <- U. apply plain_whole. split; [split|].
        - destruct ds; [congruence|discriminate].
        - apply chr_only, Forall_app. split; [exact Ds|apply zeros_ok].
        - right. destruct ds as [|y ds']; [congruence|]. cbn. unfold chr. destruct y; try lia; destruct Hh. }
      split; [rewrite inject_Z_mult, Zpower_Qpower by lia; rewrite <- Qmult_assoc, <- Qpower_plus by apply ten_nz; replace (dp - s + - 0) with (L - s + g) by (unfold dp; lia); apply Val|].
      split; [lia|]. pose proof (Pc (dp - s) ltac:(lia)). split; [nia|].
      destruct (Z_le_gt_dec 0 g) as [Gg|Gg].
      * rewrite Z.max_r by lia. rewrite <- Uf, Us. replace (dp - s) with ((L - s) + g) by (unfold dp; lia). rewrite Z.pow_add_r by lia. lia.
      * rewrite Z.max_l by lia. rewrite Z.pow_0_r, Z.mul_1_r. rewrite <- Uf, Us. apply Z.mul_le_mono_nonneg_l; [lia|]. apply Z.pow_le_mono_r; unfold dp; lia.
    + (* digits on both sides *)
      rewrite (Z.max_l _ 0) by lia. rewrite (proj2 (Z.ltb_lt 0 (s - dp))) by lia.
      replace (Z.to_nat dp - length ds)%nat with 0%nat by lia. cbn [repeat]. rewrite app_nil_r.
      assert (Et : map (fun i => chr (digit_at ds (dp + Z.of_nat i))) (seq 0 (Z.to_nat (s - dp))) = map chr (skipn (Z.to_nat dp) ds)).
      { rewrite <- digit_at_tail by lia. replace (Z.to_nat (s - dp)) with (length ds - Z.to_nat dp)%nat by lia. apply map_ext. intros i. f_equal. f_equal. lia. }
      rewrite Et.
      set (k := Z.to_nat dp). assert (Lk : (k < length ds)%nat) by lia.
      assert (Sk : exists r, skipn k ds = r ++ [x]).
      { exists (skipn k a). rewrite Ea, skipn_app. replace (k - length a)%nat with 0%nat; [reflexivity|]. rewrite Ea, app_length in Lk. cbn [length] in Lk. lia. }
      destruct Sk as [r Sk]. rewrite Sk, map_app. cbn [map].
      assert (Df2 : digits_ok (firstn k ds)) by (rewrite <- (firstn_skipn k ds) in Ds; apply Forall_app in Ds; apply Ds).
      assert (Dr : digits_ok r) by (rewrite <- (firstn_skipn k ds), Sk in Ds; apply Forall_app in Ds as [_ Ds]; apply Forall_app in Ds; apply Ds).
      exists (undec ds), (s - dp).
      assert (Lr : Z.of_nat (length (map chr r)) + 1 = s - dp).
      { rewrite map_length. assert (length (skipn k ds) = length ds - k)%nat by apply skipn_length. rewrite Sk, app_length in H. cbn [length] in H. lia. }
      assert (U : in_base_ten (map chr (firstn k ds) ++ map chr r ++ [chr x]) = undec ds).
      { change [chr x] with (map chr [x]). rewrite <- !map_app, <- Sk, firstn_skipn. apply in_base_chr. }
      split.
      { rewrite <- U, <- Lr. apply plain_point; [|apply chr_only, Dr|unfold chr; lia]. split; [split|].
        - destruct ds as [|y ds']; [congruence|]. assert (k <> 0%nat) by lia. destruct k; [congruence|]. discriminate.
        - apply chr_only, Df2.
        - right. destruct ds as [|y ds']; [congruence|]. assert (k <> 0%nat) by lia. destruct k; [congruence|]. cbn. unfold chr. destruct y; try lia; destruct Hh. }
      split; [replace (- (s - dp)) with (L - s + g) by (unfold dp; lia); apply Val|]. split; [unfold dp; lia|]. split; [exact Pd|exact Le'].
  - (* a number below one *)
    apply Z.ltb_ge in C. assert (Ps : 0 < s) by (unfold s; destruct ds; [congruence|cbn [length]; lia]).
    rewrite (Z.max_l _ 0) by lia. rewrite (proj2 (Z.ltb_lt 0 (s - dp))) by lia.
    set (z := Z.to_nat (- dp)).
    assert (Em : map (fun i => chr (digit_at ds (dp + Z.of_nat i))) (seq 0 (Z.to_nat (s - dp))) = map chr (repeat 0 z ++ ds)).
    { rewrite <- digit_at_shift. replace (Z.to_nat (s - dp)) with (z + length ds)%nat by lia. apply map_ext. intros i. f_equal. f_equal. lia. }
    rewrite Em, Ea, app_assoc, map_app. cbn [map]. exists (undec ds), (s - dp).
    assert (U : in_base_ten ([48] ++ map chr (repeat 0 z ++ a) ++ [chr x]) = undec ds).
    { change [chr x] with (map chr [x]). change [48] with (map chr [0]). rewrite <- !map_app, in_base_chr. rewrite <- app_assoc, <- Ea.
      rewrite undec_app, undec_app, undec_zeros. change (undec [0]) with 0. lia. }
    assert (Lr : Z.of_nat (length (map chr (repeat 0 z ++ a))) + 1 = s - dp).
    { rewrite map_length, app_length, repeat_length. unfold s. rewrite Ea, app_length. cbn [length]. lia. }
    split.
    { rewrite <- U, <- Lr. apply plain_point; [|apply chr_only, Forall_app; split; [apply zeros_ok|exact Da]|unfold chr; lia].
      split; [split; [discriminate|constructor; [lia|constructor]]|left; reflexivity]. }
    split; [replace (- (s - dp)) with (L - s + g) by (unfold dp; lia); apply Val|]. split; [unfold dp; lia|]. split; [exact Pd|exact Le'].
Qed.
