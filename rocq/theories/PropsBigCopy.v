(** C91: who shares the storage of a big number after a conversion. *)
From Coq Require Import ZArith List QArith Lia ZifyBool ZifyNat.
From Verif Require Import Base SliceMem BigCopy BigCopySpec.
Close Scope Q_scope.
Open Scope Z_scope.

Lemma set_int_at W a x : (a < length (w_ints W))%nat -> nth_error (w_ints (set_int W a x)) a = Some x.
Proof.
  intros L. unfold set_int. cbn [w_ints]. rewrite nth_error_app2; rewrite firstn_length_le by lia; [|lia]. rewrite Nat.sub_diag. reflexivity.
Qed.
Lemma set_int_other W a b x : (a < length (w_ints W))%nat -> b <> a -> nth_error (w_ints (set_int W a x)) b = nth_error (w_ints W) b.
Proof.
  intros L N. unfold set_int. cbn [w_ints]. destruct (Nat.lt_ge_cases b a) as [H|H].
  - rewrite nth_error_app1 by (rewrite firstn_length_le; lia). rewrite <- (firstn_skipn a (w_ints W)) at 2. rewrite nth_error_app1; [reflexivity|rewrite firstn_length_le; lia].
  - rewrite nth_error_app2 by (rewrite firstn_length_le; lia). rewrite firstn_length_le by lia. destruct (b - a)%nat as [|k] eqn:E; [lia|]. cbn [nth_error].
    rewrite <- (firstn_skipn (S a) (w_ints W)) at 2. rewrite nth_error_app2 by (rewrite firstn_length_le; lia). rewrite firstn_length_le by lia. f_equal. lia.
Qed.
Lemma nth_lt {A} (l : list A) a x : nth_error l a = Some x -> (a < length l)%nat.
Proof. intros H. apply nth_error_Some. congruence. Qed.

(** The copy is another object that holds the same number; no other object changes. *)
Theorem C91_copy W i o v : holds W i v -> (forall a, o = Some a -> (a < length (w_ints W))%nat) ->
  exists a W', to_same W (Some i) o = Done (Some a, W') /\ a <> i /\ holds W' a v /\ holds W' i v /\ others_kept W W' a /\
    (forall b, o = Some b -> b <> i -> a = b) /\ (o = None \/ o = Some i -> nth_error (w_ints W) a = None).
Proof.
  intros (x & Hx & Hv) Ho. pose proof (nth_lt _ _ _ Hx) as L. unfold to_same.
  assert (F : let '(a, W1) := new_int W in nth_error (w_ints W1) i = Some x /\ (a < length (w_ints W1))%nat /\ a = length (w_ints W) /\ w_mem W1 = w_mem W /\
    forall b, nth_error (w_ints W) b <> None -> nth_error (w_ints W1) b = nth_error (w_ints W) b).
  { unfold new_int. cbn [w_ints w_mem]. split; [rewrite nth_error_app1 by lia; exact Hx|]. split; [rewrite app_length; cbn; lia|]. split; [reflexivity|]. split; [reflexivity|].
    intros b Hb. apply nth_error_app1. apply nth_error_Some. exact Hb. }
  assert (G : exists a W1, (match o with None => new_int W | Some a => if Nat.eqb a i then new_int W else (a, W) end) = (a, W1) /\
    nth_error (w_ints W1) i = Some x /\ (a < length (w_ints W1))%nat /\ a <> i /\ w_mem W1 = w_mem W /\
    (forall b, nth_error (w_ints W) b <> None -> nth_error (w_ints W1) b = nth_error (w_ints W) b) /\
    (forall b, o = Some b -> b <> i -> a = b) /\ (o = None \/ o = Some i -> nth_error (w_ints W) a = None)).
  { destruct (new_int W) as [a W1] eqn:E. destruct F as (F1 & F2 & F3 & F4 & F5).
    assert (Na : nth_error (w_ints W) a = None) by (apply nth_error_None; lia).
    destruct o as [b|].
    - destruct (Nat.eqb_spec b i) as [->|N].
      + exists a, W1. repeat (split; [assumption || reflexivity || lia|]). split; [intros b [= <-] N; congruence|intros _; exact Na].
      + exists b, W. split; [reflexivity|]. split; [exact Hx|]. split; [apply Ho; reflexivity|]. split; [exact N|]. split; [reflexivity|]. split; [reflexivity|].
        split; [intros b0 [= <-] _; reflexivity|]. intros [H|H]; congruence.
    - exists a, W1. repeat (split; [assumption || reflexivity || lia|]). split; [discriminate|intros _; exact Na]. }
  destruct G as (a & W1 & -> & G1 & G2 & G3 & G4 & G5 & G6 & G7). rewrite G1. exists a, (set_int W1 a x).
  split; [reflexivity|]. split; [exact G3|]. split; [|split; [|split; [|split; [exact G6|exact G7]]]].
  - exists x. rewrite set_int_at by exact G2. split; [reflexivity|]. cbn [set_int w_mem]. rewrite G4. exact Hv.
  - exists x. rewrite set_int_other by (assumption || congruence). split; [exact G1|]. cbn [set_int w_mem]. rewrite G4. exact Hv.
  - intros b Nb Hb. rewrite set_int_other by assumption. apply G5, Hb.
Qed.
Theorem C91_copy_nil W o : to_same W None o = Done (None, W). Proof. reflexivity. Qed.

(** ** Writing to a number *)
Lemma words_nonneg l : Forall (fun w => 0 <= w < 2 ^ 64) l -> 0 <= words_value l.
Proof. intros F. induction F as [|u l H F IH]; [reflexivity|]. change (words_value (u :: l)) with (u + 2 ^ 64 * words_value l). lia. Qed.
Lemma array_upd (m : @mem Z) a l : (a < length m)%nat -> array (upd m a l) a = l.
Proof. intros L. unfold array, upd. rewrite app_nth2; rewrite firstn_length_le by lia; [|lia]. rewrite Nat.sub_diag. reflexivity. Qed.
Lemma array_upd_other (m : @mem Z) a b l : (a < length m)%nat -> a <> b -> array (upd m a l) b = array m b.
Proof.
  intros L N. unfold array, upd. destruct (Nat.lt_ge_cases b a) as [H|H].
  - rewrite app_nth1 by (rewrite firstn_length_le; lia). rewrite <- (firstn_skipn a m) at 2. rewrite app_nth1; [reflexivity|rewrite firstn_length_le; lia].
  - rewrite app_nth2 by (rewrite firstn_length_le; lia). rewrite firstn_length_le by lia. destruct (b - a)%nat as [|k] eqn:E; [lia|]. cbn [nth].
    rewrite <- (firstn_skipn (S a) m) at 2. rewrite app_nth2 by (rewrite firstn_length_le; lia). rewrite firstn_length_le by lia. f_equal. lia.
Qed.
Lemma skipn_write (l : list Z) o x : (o < length l)%nat -> skipn o (write_at l o [x]) = x :: skipn (S o) l.
Proof.
  intros L. unfold write_at. replace (o + length [x])%nat with (S o) by (cbn [length]; lia). rewrite skipn_app. rewrite skipn_all2 by (rewrite firstn_length_le; lia). rewrite firstn_length_le by lia.
  rewrite Nat.sub_diag. reflexivity.
Qed.
Lemma skipn_cons (l : list Z) o : (o < length l)%nat -> exists w, skipn o l = w :: skipn (S o) l.
Proof.
  revert l. induction o as [|o IH]; intros [|a l] L; cbn in L; try lia; [exists a; reflexivity|].
  destruct (IH l ltac:(lia)) as (w & E). exists w. exact E.
Qed.

(** SetInt64 stores the number. *)
Theorem C91_set W a v : sound W a -> Z.abs v < 2 ^ 64 -> exists W', set_int64 W a v = Done W' /\ holds W' a v /\ others_kept W W' a.
Proof.
  intros (x & Hx & V & _) Hv. unfold set_int64. rewrite Hx. destruct (set_word _ _ _) as [m s] eqn:E. eexists. split; [reflexivity|].
  pose proof (nth_lt _ _ _ Hx) as L. split.
  - exists (mkInt (v <? 0) s). split; [apply set_int_at; exact L|]. cbn [set_int w_mem i_neg i_abs].
    assert (N : nat_value m s = Z.abs v).
    { unfold set_word in E. unfold nat_value. destruct (Z.abs v =? 0) eqn:Z0.
      - injection E as <- <-. destruct (i_abs x); cbn; lia.
      - assert (Fresh : forall m0 : @mem Z, contents (upd (m0 ++ [repeat zv (1 + (1 - 1))]) (length m0) (write_at (array (m0 ++ [repeat zv (1 + (1 - 1))]) (length m0)) 0 [Z.abs v])) (Some (Hdr (length m0) 0 1 (1 + (1 - 1)))) = [Z.abs v]).
        { intros m0. unfold contents. cbn [arr off len]. rewrite array_upd by (rewrite app_length; cbn; lia).
          unfold array. rewrite app_nth2 by lia. rewrite Nat.sub_diag. reflexivity. }
        destruct (i_abs x) as [h|].
        + destruct (1 <=? cap h)%nat eqn:C.
          * injection E as <- <-. cbn [valid] in V. unfold contents. cbn [arr off len]. rewrite array_upd by lia. rewrite skipn_write by lia. cbn. lia.
          * unfold smake in E. cbn [arr] in E. injection E as <- <-. rewrite Fresh. cbn. lia.
        + unfold smake in E. cbn [arr] in E. injection E as <- <-. rewrite Fresh. cbn. lia. }
    rewrite N. destruct (v <? 0) eqn:B; lia.
  - intros b Nb _. rewrite set_int_other by assumption. reflexivity.
Qed.

(** Two objects that have no array in common do not influence each other ... *)
Theorem C91_apart W a b v w : sound W a -> sound W b -> a <> b -> apart W a b -> holds W b w ->
  exists W', set_int64 W a v = Done W' /\ holds W' b w.
Proof.
  intros (x & Hx & Va & _) (y0 & Hy0 & Vb & _) N A (y & Hy & Hw). assert (y0 = y) by congruence. subst y0. unfold set_int64. rewrite Hx.
  destruct (set_word _ _ _) as [m s] eqn:E. eexists. split; [reflexivity|].
  exists y. split; [rewrite set_int_other by (try congruence; eapply nth_lt; exact Hx); exact Hy|]. cbn [set_int w_mem].
  assert (K : nat_value m (i_abs y) = nat_value (w_mem W) (i_abs y)); [|rewrite K; exact Hw].
  unfold nat_value. f_equal. unfold contents. destruct (i_abs y) as [k|] eqn:Ey; [|reflexivity]. f_equal. f_equal. cbn [valid] in Vb.
  assert (Old : forall m0 l, array (upd (m0 ++ [repeat (@zv Z _) (1 + (1 - 1))]) (length m0) l) (arr k) = array m0 (arr k) \/ (length m0 <= arr k)%nat).
  { intros m0 l. destruct (Nat.lt_ge_cases (arr k) (length m0)) as [L|L]; [left|right; exact L].
    rewrite array_upd_other by (try lia; rewrite app_length; cbn; lia). unfold array. apply app_nth1. exact L. }
  unfold set_word in E. destruct (Z.abs v =? 0); [injection E as <- <-; reflexivity|]. destruct (i_abs x) as [h|] eqn:Ex.
  - destruct (1 <=? cap h)%nat.
    + injection E as <- <-. cbn [valid] in Va. apply array_upd_other; [lia|]. exact (A x y h k Hx Hy Ex Ey).
    + unfold smake in E. cbn [arr] in E. injection E as <- <-. destruct (Old (w_mem W) (write_at (array (w_mem W ++ [repeat (@zv Z _) (1 + (1 - 1))]) (length (w_mem W))) 0 [Z.abs v])) as [O|O]; [exact O|lia].
  - unfold smake in E. cbn [arr] in E. injection E as <- <-. destruct (Old (w_mem W) (write_at (array (w_mem W ++ [repeat (@zv Z _) (1 + (1 - 1))]) (length (w_mem W))) 0 [Z.abs v])) as [O|O]; [exact O|lia].
Qed.

(** ... but an object and its copy do have one in common.  Finding: although To promises that the copy may be modified without
    affecting the original, SetInt64 of a number other than zero on the copy replaces the lowest word of the original; an
    original of one word takes the magnitude of the new number. *)
Theorem C91_copy_shares_refuted W i o n v : sound W i -> holds W i n -> n <> 0 -> (forall a, o = Some a -> (a < length (w_ints W))%nat) -> v <> 0 ->
  exists a W' W'', to_same W (Some i) o = Done (Some a, W') /\ set_int64 W' a v = Done W'' /\
    holds W'' i (Z.sgn n * (Z.abs n - Z.abs n mod 2 ^ 64 + Z.abs v)).
Proof.
  intros (x & Hx & V & Fw) Hn Nn Ho Nv. destruct (C91_copy W i o n Hn Ho) as (a & W' & E & Na & _ & _ & K & _).
  pose proof (nth_lt _ _ _ Hx) as L.
  assert (M : w_mem W' = w_mem W /\ nth_error (w_ints W') a = Some x /\ nth_error (w_ints W') i = Some x).
  { assert (Hi : nth_error (w_ints W') i = Some x) by (rewrite (K i); [exact Hx|congruence|congruence]).
    unfold to_same in E. destruct (match o with None => new_int W | Some a0 => if Nat.eqb a0 i then new_int W else (a0, W) end) as [oa W1] eqn:E1.
    assert (M1 : w_mem W1 = w_mem W /\ nth_error (w_ints W1) i = Some x /\ (oa < length (w_ints W1))%nat).
    { destruct o as [b|]; [destruct (Nat.eqb b i)|]; unfold new_int in E1; injection E1 as <- <-; cbn [w_mem w_ints];
        (split; [reflexivity|split; [try exact Hx; rewrite nth_error_app1 by lia; exact Hx|rewrite ?app_length; cbn; try lia; apply Ho; reflexivity]]). }
    destruct M1 as (M1 & M2 & M3). rewrite M2 in E. injection E as <- <-. split; [exact M1|]. split; [apply set_int_at; exact M3|exact Hi]. }
  destruct M as (M & Ha & Hi). exists a, W'. unfold set_int64. rewrite Ha, M. destruct Hn as (x' & Hx' & Hv). assert (x' = x) by congruence. subst x'.
  destruct (i_abs x) as [h|] eqn:Eh; [|exfalso; apply Nn; rewrite Hv; cbn; destruct (i_neg x); reflexivity].
  cbn [valid] in V. assert (Lh : (1 <= len h)%nat).
  { destruct (len h) eqn:E0; [|lia]. exfalso. apply Nn. rewrite Hv. unfold nat_value, contents. rewrite E0. cbn. destruct (i_neg x); reflexivity. }
  unfold set_word. replace (Z.abs v =? 0) with false by lia. replace (1 <=? cap h)%nat with true by lia. eexists. split; [exact E|]. split; [reflexivity|].
  exists x. split; [rewrite set_int_other by (try congruence; eapply nth_lt; exact Ha); cbn [w_ints]; exact Hi|]. cbn [set_int w_mem]. rewrite Eh.
  set (m := w_mem W) in *. unfold nat_value, contents in Hv, Fw |- *. rewrite array_upd by lia.
  rewrite skipn_write by lia. destruct (skipn_cons (array m (arr h)) (off h) ltac:(lia)) as (w & Ew). rewrite Ew in Hv, Fw.
  destruct (len h) as [|k]; [lia|]. cbn [firstn words_value fold_right] in *. fold (words_value (firstn k (skipn (S (off h)) (array m (arr h))))) in *.
  set (hi := words_value (firstn k (skipn (S (off h)) (array m (arr h))))) in *.
  inversion Fw as [|? ? Fw0 Fw1]; subst.
  assert (H0 : 0 <= hi).
  { apply words_nonneg. exact Fw1. }
  set (n0 := w + 2 ^ 64 * hi) in *.
  assert (Mo : n0 mod 2 ^ 64 = w) by (unfold n0; rewrite (Z.mul_comm (2 ^ 64) hi), Z.mod_add by lia; apply Z.mod_small; exact Fw0).
  assert (P : 0 <= n0) by (unfold n0; lia).
  destruct (i_neg x).
  - assert (Sg : Z.sgn (- n0) = -1) by lia. rewrite Sg. rewrite Z.abs_opp, Z.abs_eq by lia. rewrite Mo. unfold n0. lia.
  - assert (Sg : Z.sgn n0 = 1) by lia. rewrite Sg. rewrite Z.abs_eq by lia. rewrite Mo. unfold n0. lia.
Qed.

(** Finding: BigRatToBigInt hands out the numerator inside the *big.Rat: setting the integer sets the numerator. *)
Theorem C91_rat_shares_refuted W r o v : sound W (r_num r) -> sound W (r_den r) -> holds W (r_den r) 1 -> Z.abs v < 2 ^ 64 ->
  rat_to_int W r o = Done (None, Some (r_num r)) /\ exists W', set_int64 W (r_num r) v = Done W' /\ holds W' (r_num r) v.
Proof.
  intros Hs (x' & Hx' & _ & Fw) (x & Hx & Hd) Hv. assert (x' = x) by congruence. subst x'. split.
  - unfold rat_to_int. rewrite Hx. assert (P : 0 <= nat_value (w_mem W) (i_abs x)).
    { apply words_nonneg. exact Fw. }
    assert (H : nat_value (w_mem W) (i_abs x) = 1) by (destruct (i_neg x); lia).
    rewrite H. rewrite Z.eqb_refl, Bool.orb_true_r. reflexivity.
  - destruct (C91_set W (r_num r) v Hs Hv) as (W' & E & H & _). exists W'. auto.
Qed.
(** Fractions are refused and change nothing. *)
Theorem C91_rat_fraction W r o d : holds W (r_den r) d -> 1 < d -> rat_to_int W r o = Done (Some rat_err, o).
Proof.
  intros (x & Hx & Hd) D. unfold rat_to_int. rewrite Hx. destruct (i_abs x) as [h|] eqn:Eh.
  - cbn [slen]. destruct (Nat.eqb_spec (len h) 0) as [E0|_].
    + exfalso. unfold nat_value, contents in Hd. rewrite E0 in Hd. cbn in Hd. destruct (i_neg x); lia.
    + cbn [orb]. destruct (i_neg x); destruct (nat_value (w_mem W) (Some h) =? 1) eqn:C; try reflexivity; lia.
  - exfalso. cbn in Hd. destruct (i_neg x); lia.
Qed.

(** ** Examples: 5 is copied, the copy set to 7, and the original is 7 *)
Definition exW : world := World [mkInt false (Some (Hdr 0 0 1 1)); mkInt false (Some (Hdr 1 0 1 1))] [[5]; [1]].
Example ex_sound : sound exW 0%nat /\ holds exW 0%nat 5 /\ holds exW 1%nat 1 /\ sound exW 1%nat /\ apart exW 0%nat 1%nat.
Proof.
  split; [|split; [|split; [|split]]].
  - eexists. split; [reflexivity|]. split; [cbn; lia|]. cbn. repeat constructor; lia.
  - eexists. split; reflexivity.
  - eexists. split; reflexivity.
  - eexists. split; [reflexivity|]. split; [cbn; lia|]. cbn. repeat constructor; lia.
  - intros x y h k [= <-] [= <-] [= <-] [= <-]. cbn. lia.
Qed.
Example ex_shared : exists W' W'', to_same exW (Some 0%nat) None = Done (Some 2%nat, W') /\ set_int64 W' 2%nat 7 = Done W'' /\ holds W'' 0%nat 7.
Proof. eexists _, _. split; [reflexivity|]. split; [reflexivity|]. eexists. split; reflexivity. Qed.

Print Assumptions C91_copy. Print Assumptions C91_copy_nil. Print Assumptions C91_set. Print Assumptions C91_apart.
Print Assumptions C91_copy_shares_refuted. Print Assumptions C91_rat_shares_refuted. Print Assumptions C91_rat_fraction.
