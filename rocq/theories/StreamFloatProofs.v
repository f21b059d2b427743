(** Distinct and Duplicate over floats, where == is not reflexive. *)
From Coq Require Import QArith.
Close Scope Q_scope.
From Verif Require Import Base IterSpec Iter IterProofs GoMap Stream StreamSpec StreamProofs StreamProofs2 Float FloatSpec FloatProofs2 MathFloat MathFloatSpec MathFloatProofs.
Open Scope nat_scope.

Section Per.
  Context {T : Type} (eqb : T -> T -> bool) (P : per eqb).
  Lemma distinct_spec_per l : forall vals seen,
    (forall x, mget eqb vals x = if existsb (eqb x) seen then Some true else None) ->
    fst (filter_acc (distinct_cb eqb) vals l) = firsts eqb seen l.
  Proof.
    induction l as [|x l IH]; intros vals seen I; cbn [filter_acc firsts]; auto.
    assert (D : distinct_cb eqb vals x = if existsb (eqb x) seen then (false, vals) else (true, mset eqb vals x true)).
    { unfold distinct_cb. rewrite I. destruct (existsb (eqb x) seen); reflexivity. }
    rewrite D. clear D. destruct (existsb (eqb x) seen) eqn:Ex.
    - specialize (IH vals seen I). destruct (filter_acc (distinct_cb eqb) vals l). simpl in *. auto.
    - specialize (IH (mset eqb vals x true) (x :: seen)). destruct (filter_acc (distinct_cb eqb) (mset eqb vals x true) l).
      simpl in *. rewrite IH; auto. intros y. rewrite mget_set_per by auto. simpl. destruct (eqb y x); simpl; auto.
  Qed.
  Lemma count_per x y l : eqb x y = true -> count_of eqb x l = count_of eqb y l.
  Proof. intros H. unfold count_of. f_equal. apply filter_ext. intros z. apply per_false; auto. Qed.
  Lemma duplicate_spec_per l : forall vals seen,
    (forall x, mget eqb vals x = if count_of eqb x seen =? 0 then None else Some (Nat.min 3 (count_of eqb x seen))) ->
    fst (filter_acc (duplicate_cb eqb) vals l) = seconds eqb seen l.
  Proof.
    induction l as [|x l IH]; intros vals seen I; cbn [filter_acc seconds]; auto.
    set (c := count_of eqb x seen) in *.
    assert (D : duplicate_cb eqb vals x = (c =? 1, if Nat.min 3 c <? 3
      then mset eqb vals x (if Nat.min 3 c <? 3 then Nat.min 3 c + 1 else Nat.min 3 c) else vals)).
    { unfold duplicate_cb. rewrite I. fold c.
      replace (match (if c =? 0 then None else Some (Nat.min 3 c)) with Some n => n | None => 0 end) with (Nat.min 3 c)
        by (destruct (Nat.eqb_spec c 0); [lia|reflexivity]).
      f_equal. destruct (Nat.ltb_spec (Nat.min 3 c) 3); destruct (Nat.eqb_spec c 1); apply Nat.eqb_eq || apply Nat.eqb_neq; lia. }
    rewrite D. clear D.
    specialize (IH (if Nat.min 3 c <? 3
      then mset eqb vals x (if Nat.min 3 c <? 3 then Nat.min 3 c + 1 else Nat.min 3 c) else vals) (x :: seen)).
    destruct (filter_acc (duplicate_cb eqb) _ l) as [us c2]. cbn [fst snd] in IH |- *.
    assert (C : forall y, count_of eqb y (x :: seen) = (if eqb y x then 1 else 0) + count_of eqb y seen).
    { intros y. unfold count_of. cbn [filter]. destruct (eqb y x); reflexivity. }
    rewrite IH; [destruct (c =? 1); reflexivity|]. clear IH. intros y. rewrite C.
    destruct (eqb y x) eqn:Q.
    - rewrite (count_per y x seen Q). fold c. destruct (Nat.ltb_spec (Nat.min 3 c) 3).
      + rewrite mget_set_per, Q by auto. destruct (Nat.eqb_spec (1 + c) 0); [lia|]. f_equal. lia.
      + rewrite I. rewrite (count_per y x seen Q). fold c. destruct (Nat.eqb_spec c 0), (Nat.eqb_spec (1 + c) 0); try lia. f_equal. lia.
    - destruct (Nat.ltb_spec (Nat.min 3 c) 3); [rewrite mget_set_per, Q by auto|]; rewrite I; reflexivity.
  Qed.
  Lemma per_sym x y : eqb x y = eqb y x.
  Proof. destruct P as (Sy & _). destruct (eqb x y) eqn:A, (eqb y x) eqn:B; auto; [rewrite (Sy _ _ A) in B|rewrite (Sy _ _ B) in A]; discriminate. Qed.
  Lemma per_refl x y : eqb x y = true -> eqb x x = true.
  Proof. intros H. destruct P as (Sy & Tr). apply (Tr x y x); auto. Qed.
  (** the outputs of Distinct *)
  Lemma firsts_in l : forall seen x, In x (firsts eqb seen l) -> In x l /\ existsb (eqb x) seen = false.
  Proof.
    induction l as [|y l IH]; intros seen x; simpl; [tauto|]. destruct (existsb (eqb y) seen) eqn:E.
    - intros H. apply IH in H. tauto.
    - intros [<-|H]; [tauto|]. apply IH in H. simpl in H. destruct H as (H1 & H2). apply orb_false_elim in H2. tauto.
  Qed.
  Lemma firsts_pairs l : forall seen, ForallOrdPairs (fun x y => eqb x y = false) (firsts eqb seen l).
  Proof.
    induction l as [|y l IH]; intros seen; simpl; [constructor|]. destruct (existsb (eqb y) seen) eqn:E; auto. constructor; auto.
    apply Forall_forall. intros x H. apply firsts_in in H. simpl in H. destruct H as (_ & H). apply orb_false_elim in H. rewrite per_sym. tauto.
  Qed.
  Lemma firsts_cover l : forall seen x, In x l -> eqb x x = true -> existsb (eqb x) (seen ++ firsts eqb seen l) = true.
  Proof.
    induction l as [|y l IH]; intros seen x; simpl; [tauto|]. intros [->|H] R.
    - destruct (existsb (eqb x) seen) eqn:E; rewrite existsb_app; [rewrite E; reflexivity|]. simpl. rewrite R, orb_true_r. reflexivity.
    - destruct (existsb (eqb y) seen) eqn:E; auto.
      specialize (IH (y :: seen) x H R). simpl in IH. rewrite existsb_app in *. simpl. rewrite !orb_true_iff in *. tauto.
  Qed.
  Lemma firsts_odd l : forall seen, filter (fun x => negb (eqb x x)) (firsts eqb seen l) = filter (fun x => negb (eqb x x)) l.
  Proof.
    induction l as [|y l IH]; intros seen; simpl; [reflexivity|]. destruct (existsb (eqb y) seen) eqn:E.
    - apply existsb_exists in E as (z & _ & E). rewrite (per_refl _ _ E). simpl. apply IH.
    - simpl. rewrite IH. reflexivity.
  Qed.
  (** the outputs of Duplicate *)
  Lemma count_cons y x l : count_of eqb y (x :: l) = (if eqb y x then 1 else 0) + count_of eqb y l.
  Proof. unfold count_of. cbn [filter]. destruct (eqb y x); reflexivity. Qed.
  Lemma seconds_in l : forall seen x, In x (seconds eqb seen l) ->
    In x l /\ eqb x x = true /\ count_of eqb x seen <= 1 /\ 2 <= count_of eqb x seen + count_of eqb x l.
  Proof.
    induction l as [|y l IH]; intros seen x; cbn [seconds]; [simpl; tauto|].
    assert (R : In x (seconds eqb (y :: seen) l) -> In x (y :: l) /\ eqb x x = true /\ count_of eqb x seen <= 1 /\ 2 <= count_of eqb x seen + count_of eqb x (y :: l)).
    { intros H. apply IH in H. rewrite !count_cons in *. simpl. split; [tauto|]. split; [tauto|]. lia. }
    destruct (Nat.eqb_spec (count_of eqb y seen) 1) as [C|C]; [|exact R]. intros [<-|H]; [|exact (R H)].
    rewrite count_cons, C. assert (Y : eqb y y = true).
    { unfold count_of in C. destruct (filter (eqb y) seen) as [|z r] eqn:F; [discriminate|]. assert (I : In z (z :: r)) by (simpl; auto).
      rewrite <- F in I. apply filter_In in I. apply (per_refl y z). tauto. }
    rewrite Y. simpl. split; [auto|]. split; [auto|]. lia.
  Qed.
  Lemma seconds_pairs l : forall seen, ForallOrdPairs (fun x y => eqb x y = false) (seconds eqb seen l).
  Proof.
    induction l as [|y l IH]; intros seen; cbn [seconds]; [constructor|]. destruct (Nat.eqb_spec (count_of eqb y seen) 1) as [C|C]; auto.
    constructor; auto. apply Forall_forall. intros x H. apply seconds_in in H. destruct H as (_ & _ & H & _). rewrite count_cons in H.
    rewrite per_sym. destruct (eqb x y) eqn:Q; auto. rewrite (count_per x y seen Q) in H. lia.
  Qed.
  Lemma seconds_cover l : forall seen x, count_of eqb x seen <= 1 -> 2 <= count_of eqb x seen + count_of eqb x l ->
    exists y, In y (seconds eqb seen l) /\ eqb x y = true.
  Proof.
    induction l as [|y l IH]; intros seen x H1 H2; [unfold count_of at 2 in H2; simpl in H2; lia|]. cbn [seconds]. rewrite count_cons in H2.
    destruct (eqb x y) eqn:Q.
    - destruct (Nat.eqb_spec (count_of eqb y seen) 1) as [C|C]; [exists y; simpl; auto|].
      rewrite <- (count_per x y seen Q) in C. destruct (IH (y :: seen) x) as (z & I & E); [rewrite count_cons, Q; lia|rewrite count_cons, Q; lia|]. eauto.
    - destruct (IH (y :: seen) x) as (z & I & E); [rewrite count_cons, Q; lia|rewrite count_cons, Q; lia|].
      exists z. split; [|exact E]. destruct (count_of eqb y seen =? 1); simpl; auto.
  Qed.
End Per.

(** Go's == on floats *)
Lemma stands_exists x : x <> NaN -> exists a, stands x a.
Proof.
  destruct x as [|[]|neg m e]; intros N; [destruct (N eq_refl)|exists MinusInf; reflexivity|exists PlusInf; reflexivity|].
  eexists (Num _). cbn. reflexivity.
Qed.
Lemma ext_le_antisym a b : ext_le a b -> ext_le b a -> ext_eq a b.
Proof.
  destruct a as [|p|], b as [|q|]; unfold ext_le; cbn; try tauto. intros [A|A] [B|B]; try assumption; try (symmetry; assumption).
  exfalso. apply (Qlt_irrefl p). apply (Qlt_trans _ q); assumption.
Qed.
Lemma ext_eq_le a b : ext_eq a b -> ext_le a b /\ ext_le b a.
Proof. destruct a as [|p|], b as [|q|]; unfold ext_le; cbn; try tauto. intros H. split; right; [assumption|symmetry; assumption]. Qed.
Lemma feqb_ok x y a b : stands x a -> stands y b -> feqb x y = true <-> ext_eq a b.
Proof.
  intros Hx Hy. unfold feqb. rewrite andb_true_iff, (fleb_ok x y a b Hx Hy), (fleb_ok y x b a Hy Hx). split.
  - intros (A & B). apply ext_le_antisym; assumption.
  - apply ext_eq_le.
Qed.
Lemma feqb_nan_l y : feqb NaN y = false. Proof. reflexivity. Qed.
Lemma feqb_nan_r x : feqb x NaN = false. Proof. unfold feqb. rewrite (proj2 (fltb_nan x NaN ltac:(auto))). reflexivity. Qed.
Lemma feqb_self x : feqb x x = negb (is_nan x).
Proof.
  destruct x as [|b|neg m e]; [reflexivity|destruct b; reflexivity|]. cbn [is_nan negb].
  apply (feqb_ok _ _ (Num (digits 2 (if neg then (- m)%Z else m) e)) (Num (digits 2 (if neg then (- m)%Z else m) e))); cbn; reflexivity.
Qed.
Lemma feqb_per : per feqb.
Proof.
  split.
  - intros a b H. unfold feqb in *. rewrite andb_comm. exact H.
  - intros a b c H1 H2.
    destruct (is_nan a) eqn:A; [destruct a; try discriminate|]. destruct (is_nan b) eqn:B; [destruct b; try discriminate; rewrite feqb_nan_r in H1; discriminate|].
    destruct (is_nan c) eqn:C; [destruct c; try discriminate; rewrite feqb_nan_r in H2; discriminate|].
    destruct (stands_exists a) as (x & X); [intros ->; discriminate|]. destruct (stands_exists b) as (y & Y); [intros ->; discriminate|].
    destruct (stands_exists c) as (z & Zc); [intros ->; discriminate|].
    apply (feqb_ok a b x y X Y) in H1. apply (feqb_ok b c y z Y Zc) in H2. apply (feqb_ok a c x z X Zc).
    destruct x as [|p|], y as [|q|], z as [|r|]; cbn in *; try tauto. rewrite H1. exact H2.
Qed.
Lemma pairs_impl {A} (R R' : A -> A -> Prop) (H : forall x y, R x y -> R' x y) l : ForallOrdPairs R l -> ForallOrdPairs R' l.
Proof. induction 1 as [|x l F _ IH]; constructor; auto. revert F. apply Forall_impl. auto. Qed.
Lemma odd_nan (l : list float) : filter (fun x => negb (feqb x x)) l = filter is_nan l.
Proof. apply filter_ext. intros x. rewrite feqb_self, negb_involutive. reflexivity. Qed.
Lemma stands_not_nan x a : stands x a -> feqb x x = true.
Proof. rewrite feqb_self. destruct x as [|b|neg m e]; try reflexivity. destruct a; cbn; try discriminate; tauto. Qed.
Lemma feqb_stands x y a : stands x a -> feqb x y = true -> exists b, stands y b /\ ext_eq a b.
Proof.
  intros X Q. destruct (stands_exists y) as (b & B); [intros ->; rewrite feqb_nan_r in Q; discriminate|].
  exists b. split; [exact B|]. apply (feqb_ok x y a b X B). exact Q.
Qed.
