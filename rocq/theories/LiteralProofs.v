(** Proofs about the texts of numbers. *)
From Coq Require Import ZArith List QArith Qpower Bool Lia Lqa.
From Verif Require Import Base Float ConvFloat ConvFloatSpec Literal LiteralSpec.
Close Scope Q_scope.
Open Scope Z_scope.

(** ** scanning *)
Definition b10 (z : Z) (l : list Z) : Z := fold_left (fun a c => a * 10 + (c - 48)) l z.
Lemma dv_digit c : 48 <= c <= 57 -> digit_value c = c - 48.
Proof. intros H. unfold digit_value. destruct (48 <=? c) eqn:A, (c <=? 57) eqn:B; cbn; try lia. Qed.
Lemma dv_not c : ~ 48 <= c <= 57 -> 10 <= digit_value c.
Proof.
  intros H. unfold digit_value. destruct (48 <=? c) eqn:A, (c <=? 57) eqn:B; cbn; try lia;
    destruct (97 <=? c) eqn:C, (c <=? 122) eqn:D; cbn; try lia; destruct (65 <=? c) eqn:E, (c <=? 90) eqn:F; cbn; lia.
Qed.
Lemma scan_run l : forall sep fr rest prev inval count dp z, digits_only l ->
  scan_digits 10 sep fr (l ++ rest) prev inval count dp z =
  scan_digits 10 sep fr rest (match l with [] => prev | _ => 48 end) inval (count + Z.of_nat (length l)) dp (b10 z l).
Proof.
  induction l as [|c l IH]; intros sep fr rest prev inval count dp z H.
  - cbn. rewrite Z.add_0_r. reflexivity.
  - inversion H as [|? ? Hc Hl]; subst. cbn [app scan_digits]. rewrite (dv_digit c Hc).
    replace (c =? 46) with false by (symmetry; apply Z.eqb_neq; lia). replace (c =? 95) with false by (symmetry; apply Z.eqb_neq; lia).
    replace (10 <=? c - 48) with false by (symmetry; apply Z.leb_gt; lia). cbn [andb].
    rewrite IH by exact Hl. cbn [length]. rewrite Nat2Z.inj_succ. unfold b10. cbn [fold_left].
    replace (count + 1 + Z.of_nat (length l)) with (count + Z.succ (Z.of_nat (length l))) by lia. destruct l; reflexivity.
Qed.
Definition stops (sep fr : bool) (s : list Z) : Prop :=
  match s with [] => True | c :: _ => ~ 48 <= c <= 57 /\ (fr = true -> c <> 46) /\ (sep = true -> c <> 95) end.
Lemma scan_stop sep fr s prev inval count dp z : stops sep fr s -> scan_digits 10 sep fr s prev inval count dp z = (z, count, dp, prev, inval, s).
Proof.
  destruct s as [|c r]; [reflexivity|]. intros (A & B & C). cbn [scan_digits].
  replace ((c =? 46) && fr) with false by (symmetry; destruct fr; [rewrite (proj2 (Z.eqb_neq c 46)) by auto; reflexivity|apply andb_false_r]).
  replace ((c =? 95) && sep) with false by (symmetry; destruct sep; [rewrite (proj2 (Z.eqb_neq c 95)) by auto; reflexivity|apply andb_false_r]).
  pose proof (dv_not c A). replace (10 <=? digit_value c) with true by (symmetry; apply Z.leb_le; lia). reflexivity.
Qed.
Lemma split_digits s : exists l r, s = l ++ r /\ digits_only l /\ match r with [] => True | c :: _ => ~ 48 <= c <= 57 end.
Proof.
  induction s as [|c s (l & r & E & D & R)]; [exists [], []; repeat split; constructor|].
  destruct (Z_le_dec 48 c), (Z_le_dec c 57); try (exists [], (c :: s); repeat split; [constructor|lia]).
  exists (c :: l), r. subst s. repeat split; [constructor; [lia|exact D]|exact R].
Qed.
Lemma b10_app z a b : b10 z (a ++ b) = b10 (b10 z a) b. Proof. unfold b10. apply fold_left_app. Qed.
Lemma b10_nonneg l : forall z, 0 <= z -> digits_only l -> 0 <= b10 z l.
Proof. induction l as [|c l IH]; intros z Hz H; [exact Hz|]. inversion H; subst. unfold b10. cbn [fold_left]. apply IH; [lia|assumption]. Qed.

(** the scanner without the prefixes of base 0 *)
Definition nat_scan10 (sep fr : bool) (s : list Z) : option (Z * Z * Z * list Z) :=
  let '(z, count, dp, prev, inval, rest) := scan_digits 10 sep fr s 46 false 0 None 0 in
  if inval || (prev =? 95) then None
  else if count =? 0 then None else Some (z, 10, match dp with Some p => count - p | None => 0 end, rest).
Lemma nat_scan10_false fr s : nat_scan false fr s = nat_scan10 false fr s.
Proof.
  unfold nat_scan, nat_scan10. destruct (scan_digits 10 false fr s 46 false 0 None 0) as [[[[[z count] dp] prev] inval] rest].
  destruct (inval || (prev =? 95)); [reflexivity|]. destruct (count =? 0); reflexivity.
Qed.
Definition no_prefix (fr : bool) (s : list Z) : Prop :=
  match s with
  | 48 :: ch :: _ => if fr then ~ In ch [98; 66; 111; 79; 120; 88] else False
  | _ => True
  end.
Lemma nat_scan10_true fr s : no_prefix fr s -> nat_scan true fr s = nat_scan10 true fr s.
Proof.
  intros H. unfold nat_scan, nat_scan10.
  assert (Y : forall c0 d : Z, forall s0 : list Z, match s0 with 48 :: _ => False | _ => True end ->
     (match s0 with
      | 48 :: [] => (10, 0, 1, 48, [])
      | 48 :: ch :: r =>
          if (ch =? 98) || (ch =? 66) then (2, 98, 0, 48, r)
          else if (ch =? 111) || (ch =? 79) then (8, 111, 0, 48, r)
          else if (ch =? 120) || (ch =? 88) then (16, 120, 0, 48, r)
          else if fr then (10, 0, 1, 48, ch :: r) else (8, 48, 0, 48, ch :: r)
      | _ => (10, 0, 0, 46, s0)
      end : Z * Z * Z * Z * list Z) = (10, 0, 0, 46, s0)).
  { intros _ _ s0 Hs. destruct s0 as [|c r]; [reflexivity|].
    destruct c as [|c|c]; try reflexivity. repeat (destruct c as [c|c|]; try reflexivity). destruct Hs. }
  destruct (match s with 48 :: _ => true | _ => false end) eqn:E.
  - destruct s as [|c [|ch r]]; [discriminate| |].
    + assert (c = 48) as -> by (destruct c as [|c|c]; try discriminate; repeat (destruct c as [c|c|]; try discriminate); reflexivity).
      reflexivity.
    + assert (c = 48) as -> by (destruct c as [|c|c]; try discriminate; repeat (destruct c as [c|c|]; try discriminate); reflexivity).
      cbn in H. destruct fr; [|destruct H].
      assert (N : (ch =? 98) = false /\ (ch =? 66) = false /\ (ch =? 111) = false /\ (ch =? 79) = false /\ (ch =? 120) = false /\ (ch =? 88) = false).
      { rewrite !Z.eqb_neq. repeat split; intros ->; apply H; cbn; tauto. }
      destruct N as (-> & -> & -> & -> & -> & ->). cbn [orb].
      change (scan_digits 10 true true (48 :: ch :: r) 46 false 0 None 0) with (scan_digits 10 true true (ch :: r) 48 false 1 None 0).
      destruct (scan_digits 10 true true (ch :: r) 48 false 1 None 0) as [[[[[z count] dp] prev] inval] rest].
      destruct (inval || (prev =? 95)); [reflexivity|]. destruct (count =? 0); reflexivity.
  - rewrite (Y 0 0 s).
    + destruct (scan_digits 10 true fr s 46 false 0 None 0) as [[[[[z count] dp] prev] inval] rest].
      destruct (inval || (prev =? 95)); [reflexivity|]. destruct (count =? 0); reflexivity.
    + destruct s as [|c r]; [exact Logic.I|]. destruct c as [|c|c]; try exact Logic.I. repeat (destruct c as [c|c|]; try exact Logic.I). discriminate.
Qed.
Lemma scan_int sep fr l rest : digit_string l -> stops sep fr rest -> nat_scan10 sep fr (l ++ rest) = Some (in_base_ten l, 10, 0, rest).
Proof.
  intros (N & D) St. unfold nat_scan10. rewrite scan_run by exact D. rewrite scan_stop by exact St. destruct l as [|c l]; [congruence|].
  cbn [orb Z.eqb]. replace (0 + Z.of_nat (length (c :: l)) =? 0) with false by (symmetry; apply Z.eqb_neq; cbn [length]; lia). reflexivity.
Qed.
Lemma scan_point sep l r rest : digits_only l -> digits_only r -> l ++ r <> [] -> stops sep false rest ->
  nat_scan10 sep true (l ++ 46 :: r ++ rest) = Some (in_base_ten (l ++ r), 10, Z.of_nat (length r), rest).
Proof.
  intros Dl Dr N St. unfold nat_scan10. rewrite scan_run by exact Dl. cbn [scan_digits Z.eqb Pos.eqb andb].
  rewrite scan_run by exact Dr. rewrite scan_stop by exact St.
  replace (false || ((match l with [] => 46 | _ => 48 end) =? 95)) with false by (destruct l; reflexivity). cbn [orb].
  replace ((match r with [] => 46 | _ => 48 end) =? 95) with false by (destruct r; reflexivity).
  replace (0 + Z.of_nat (length l) + Z.of_nat (length r) =? 0) with false.
  - unfold in_base_ten. change (fold_left (fun a c => a * 10 + (c - 48)) (l ++ r) 0) with (b10 0 (l ++ r)). rewrite b10_app. f_equal. f_equal. f_equal. lia.
  - symmetry. apply Z.eqb_neq. intros E. apply N. destruct l, r; cbn [length] in E; try lia. reflexivity.
Qed.
Lemma scan_mantissa sep s m f rest : mantissa s m f -> stops sep true rest -> nat_scan10 sep true (s ++ rest) = Some (m, 10, f, rest).
Proof.
  intros [l D|l r Dl Dr N] St; [apply scan_int; assumption|]. rewrite <- app_assoc. cbn [app]. apply scan_point; try assumption.
  destruct rest as [|c rest]; [exact Logic.I|]. destruct St as (A & B & C). repeat split; [exact A|discriminate|exact C].
Qed.
Lemma scan_inv s : nat_scan10 false true s = None /\ (forall a b m f, s = a ++ b -> ~ mantissa a m f) \/
  exists a b m f, s = a ++ b /\ mantissa a m f /\ match b with [] => True | c :: _ => ~ 48 <= c <= 57 end /\ nat_scan10 false true s = Some (m, 10, f, b).
Proof.
  destruct (split_digits s) as (l & r & -> & D & R).
  destruct r as [|c r].
  - destruct l as [|d l].
    + left. split; [reflexivity|]. intros a b m f E. symmetry in E. apply app_eq_nil in E as [-> ->]. intros X. inversion X as [? (Y & _)|l r ? ? ? E]; [congruence|destruct l; discriminate].
    + right. exists (d :: l), [], (in_base_ten (d :: l)), 0. split; [reflexivity|]. split; [constructor; split; [discriminate|exact D]|]. split; [exact Logic.I|].
      apply scan_int; [split; [discriminate|exact D]|exact Logic.I].
  - destruct (Z.eq_dec c 46) as [->|Nc].
    + destruct (split_digits r) as (l2 & r2 & -> & D2 & R2). destruct l as [|d l], l2 as [|d2 l2].
      * left. split.
        -- cbn [app]. unfold nat_scan10. cbn [scan_digits Z.eqb Pos.eqb andb]. rewrite scan_stop; [reflexivity|].
           destruct r2 as [|c2 r2]; [exact Logic.I|]. repeat split; [exact R2|discriminate|discriminate].
        -- cbn [app]. intros a b m f E X. inversion X as [l (Y & Z)|l r Dl Dr N Ea]; subst.
           ++ destruct a as [|x a]; [congruence|]. cbn in E. injection E as <- E. inversion Z; subst. lia.
           ++ destruct l as [|x l].
              ** cbn in E. injection E as E. destruct r as [|y r]; [apply N; reflexivity|]. subst r2. cbn in R2. inversion Dr; subst. lia.
              ** cbn in E. injection E as <- E. inversion Dl; subst. lia.
      * right. exists (46 :: d2 :: l2), r2, (in_base_ten ([] ++ d2 :: l2)), (Z.of_nat (length (d2 :: l2))). split; [reflexivity|].
        split; [apply (mant_point [] (d2 :: l2)); try assumption; try discriminate|]. split; [exact R2|].
        apply (scan_point false [] (d2 :: l2) r2); try assumption; try discriminate.
        destruct r2 as [|c2 r2]; [exact Logic.I|]. repeat split; [exact R2|discriminate|discriminate].
      * right. exists ((d :: l) ++ [46]), r2, (in_base_ten ((d :: l) ++ [])), (Z.of_nat (length (@nil Z))). split; [rewrite <- app_assoc; reflexivity|].
        split; [apply (mant_point (d :: l) []); try assumption; discriminate|]. split; [exact R2|].
        apply (scan_point false (d :: l) [] r2); try assumption; try discriminate.
        destruct r2 as [|c2 r2]; [exact Logic.I|]. repeat split; [exact R2|discriminate|discriminate].
      * right. exists ((d :: l) ++ 46 :: d2 :: l2), r2, (in_base_ten ((d :: l) ++ d2 :: l2)), (Z.of_nat (length (d2 :: l2))). split; [rewrite <- app_assoc; reflexivity|].
        split; [apply (mant_point (d :: l) (d2 :: l2)); try assumption; discriminate|]. split; [exact R2|].
        apply (scan_point false (d :: l) (d2 :: l2) r2); try assumption; try discriminate.
        destruct r2 as [|c2 r2]; [exact Logic.I|]. repeat split; [exact R2|discriminate|discriminate].
    + destruct l as [|d l].
      * left. split.
        -- cbn [app]. unfold nat_scan10. rewrite scan_stop; [reflexivity|]. repeat split; [exact R|auto|discriminate].
        -- cbn [app]. intros a b m f E X. inversion X as [l (Y & Z)|l r' Dl Dr N Ea]; subst.
           ++ destruct a as [|x a]; [congruence|]. cbn in E. injection E as <- E. inversion Z; subst. lia.
           ++ destruct l as [|x l]; cbn in E; injection E as E1 E; [congruence|]. subst. inversion Dl; subst. lia.
      * right. exists (d :: l), (c :: r), (in_base_ten (d :: l)), 0. split; [reflexivity|]. split; [constructor; split; [discriminate|exact D]|]. split; [exact R|].
        apply scan_int; [split; [discriminate|exact D]|]. repeat split; [exact R|auto|discriminate].
Qed.

(** ** exponents *)
Lemma exp_run l : forall sep rest prev inval has v, digits_only l ->
  exp_digits sep (l ++ rest) prev inval has v =
  exp_digits sep rest (match l with [] => prev | _ => 48 end) inval (match l with [] => has | _ => true end) (b10 v l).
Proof.
  induction l as [|c l IH]; intros sep rest prev inval has v H; [reflexivity|].
  inversion H as [|? ? Hc Hl]; subst. cbn [app exp_digits]. replace ((48 <=? c) && (c <=? 57)) with true by (symmetry; apply andb_true_iff; split; apply Z.leb_le; lia).
  rewrite IH by exact Hl. unfold b10. cbn [fold_left]. destruct l; reflexivity.
Qed.
Lemma exp_stop sep s prev inval has v : match s with [] => True | c :: _ => ~ 48 <= c <= 57 /\ (sep = true -> c <> 95) end ->
  exp_digits sep s prev inval has v = (v, has, prev, inval, s).
Proof.
  destruct s as [|c r]; [reflexivity|]. intros (A & C). cbn [exp_digits].
  replace ((48 <=? c) && (c <=? 57)) with false by (symmetry; apply andb_false_iff; rewrite !Z.leb_gt; lia).
  replace ((c =? 95) && sep) with false by (symmetry; destruct sep; [rewrite (proj2 (Z.eqb_neq c 95)) by auto; reflexivity|apply andb_false_r]). reflexivity.
Qed.
Definition after_sign (r : list Z) : bool * list Z := match r with 45 :: r' => (true, r') | 43 :: r' => (false, r') | _ => (false, r) end.
Lemma after_sign_other c r : c <> 45 -> c <> 43 -> after_sign (c :: r) = (false, c :: r).
Proof.
  intros A B. unfold after_sign. destruct c as [|c|c]; try reflexivity. repeat (destruct c as [c|c|]; try reflexivity); congruence.
Qed.
Lemma scan_sign_after s : scan_sign s = after_sign s. Proof. reflexivity. Qed.
Lemma scan_exponent_unfold sep c r base : base <> 0 ->
  (if (c =? 101) || (c =? 69) then 10 else if (c =? 112) || (c =? 80) then 2 else 0) = base ->
  scan_exponent sep (c :: r) =
    let '(neg, r) := after_sign r in
    let '(v, has, prev, inval, rest) := exp_digits sep r 46 false false 0 in
    let x := if neg then - v else v in
    if negb has then None
    else if (x <? - 2 ^ 63) || (2 ^ 63 <=? x) then None
    else if inval || (prev =? 95) then None
    else Some (x, base, rest).
Proof.
  intros N E. unfold scan_exponent. rewrite E. rewrite (proj2 (Z.eqb_neq base 0) N). unfold after_sign.
  destruct r as [|d r]; [reflexivity|]. reflexivity.
Qed.
Lemma decimal_after l x : decimal_text l x -> exists (neg : bool) d, after_sign l = (neg, d) /\ digit_string d /\ x = (if neg then - in_base_ten d else in_base_ten d).
Proof.
  intros [d D|d D|d D].
  - exists false, d. split; [|auto]. destruct D as (N & D). destruct d as [|c d]; [congruence|]. inversion D; subst. apply after_sign_other; lia.
  - exists false, d. auto.
  - exists true, d. auto.
Qed.
Lemma after_decimal l (neg : bool) d : after_sign l = (neg, d) -> digit_string d -> decimal_text l (if neg then - in_base_ten d else in_base_ten d).
Proof.
  intros E D. destruct l as [|c l].
  - cbn in E. injection E as <- <-. destruct D; congruence.
  - destruct (Z.eq_dec c 45) as [->|A]; [cbn in E; injection E as <- <-; constructor; exact D|].
    destruct (Z.eq_dec c 43) as [->|B]; [cbn in E; injection E as <- <-; constructor; exact D|].
    rewrite after_sign_other in E by assumption. injection E as <- <-. constructor. exact D.
Qed.
Lemma scan_exp_ok sep t b x : exponent t b x -> int64 x -> scan_exponent sep t = Some (x, b, []).
Proof.
  intros H R. assert (K : forall base c l, base <> 0 -> decimal_text l x ->
     (if (c =? 101) || (c =? 69) then 10 else if (c =? 112) || (c =? 80) then 2 else 0) = base -> scan_exponent sep (c :: l) = Some (x, base, [])).
  { intros base c l N D E. rewrite (scan_exponent_unfold sep c l base N E). destruct (decimal_after l x D) as (neg & d & -> & (Nd & Dd) & Ex).
    rewrite <- (app_nil_r d) at 1. rewrite exp_run by exact Dd. rewrite exp_stop by exact Logic.I. destruct d as [|y d]; [congruence|].
    cbn [negb orb Z.eqb Pos.eqb]. change (b10 0 (y :: d)) with (in_base_ten (y :: d)). cbn zeta. rewrite <- Ex. destruct R as [R1 R2].
    rewrite (proj2 (Z.ltb_ge x (- 2 ^ 63)) R1), (proj2 (Z.leb_gt (2 ^ 63) x) R2). reflexivity. }
  destruct H as [|c l x C D|c l x C D]; [reflexivity| |]; apply K; try assumption; try discriminate; destruct C as [-> | ->]; reflexivity.
Qed.
Lemma scan_exp_inv s : match scan_exponent false s with
  | Some (x, b, []) => exponent s b x /\ int64 x
  | Some (x, b, _) => forall b x, ~ exponent s b x
  | None => (forall b x, exponent s b x -> ~ int64 x)
  end.
Proof.
  destruct s as [|c r]; [split; [constructor|split; vm_compute; congruence]|].
  destruct (Z.eq_dec (if (c =? 101) || (c =? 69) then 10 else if (c =? 112) || (c =? 80) then 2 else 0) 0) as [E|N].
  - unfold scan_exponent. rewrite E. cbn [Z.eqb]. intros b x H. inversion H as [|? l ? C D|? l ? C D]; subst; destruct C as [-> | ->]; cbn in E; discriminate.
  - remember (if (c =? 101) || (c =? 69) then 10 else if (c =? 112) || (c =? 80) then 2 else 0) as base eqn:E. symmetry in E.
    assert (W : forall x, decimal_text r x -> exponent (c :: r) base x).
    { intros x D. destruct ((c =? 101) || (c =? 69)) eqn:C1.
      - subst base. apply exp_ten; [|exact D]. rewrite orb_true_iff, !Z.eqb_eq in C1. exact C1.
      - destruct ((c =? 112) || (c =? 80)) eqn:C2; [|congruence]. subst base. apply exp_two; [|exact D]. rewrite orb_true_iff, !Z.eqb_eq in C2. exact C2. }
    assert (V : forall b x, exponent (c :: r) b x -> decimal_text r x).
    { intros b x H. inversion H; subst; assumption. }
    rewrite (scan_exponent_unfold false c r base N E). destruct (after_sign r) as [neg d] eqn:As.
    destruct (split_digits d) as (l & rest & -> & D & R). rewrite exp_run by exact D.
    rewrite exp_stop by (destruct rest; [exact Logic.I|split; [exact R|discriminate]]). cbn zeta.
    assert (V2 : forall b x, exponent (c :: r) b x -> rest = [] /\ l <> [] /\ x = (if neg then - in_base_ten l else in_base_ten l)).
    { intros b x H. apply V in H. destruct (decimal_after r x H) as (neg' & d & E2 & (Nd & Dd) & Ex). rewrite As in E2. injection E2 as <- <-.
      destruct rest as [|c' rest].
      - rewrite app_nil_r in *. auto.
      - exfalso. apply Forall_app in Dd as (_ & Dd). inversion Dd; subst. lia. }
    destruct l as [|y l]; cbn [negb].
    + intros b x H. apply V2 in H. tauto.
    + cbn [orb Z.eqb Pos.eqb]. change (b10 0 (y :: l)) with (in_base_ten (y :: l)).
      destruct ((if neg then - in_base_ten (y :: l) else in_base_ten (y :: l)) <? - 2 ^ 63) eqn:X1;
        destruct (2 ^ 63 <=? (if neg then - in_base_ten (y :: l) else in_base_ten (y :: l))) eqn:X2; cbn [orb];
        rewrite ?Z.ltb_lt, ?Z.ltb_ge in X1; rewrite ?Z.leb_le, ?Z.leb_gt in X2;
        try (intros b x H; apply V2 in H as (_ & _ & ->); unfold int64; lia).
      destruct rest as [|c' rest].
      * split; [|split; assumption]. apply W. rewrite app_nil_r in As. apply (after_decimal r neg (y :: l) As). split; [discriminate|exact D].
      * intros b x H. apply V2 in H as (H & _). discriminate.
Qed.
