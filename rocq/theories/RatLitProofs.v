(** Proofs about the texts big.Rat.SetString accepts. *)
From Coq Require Import ZArith List QArith Qpower Bool Lia Lqa.
From Verif Require Import Base Float ConvFloat ConvFloatSpec Literal LiteralSpec LiteralProofs LiteralProofs2 RatLitSpec.
Close Scope Q_scope.
Open Scope Z_scope.

Notation fold b z ds := (fold_left (fun a d => a * b + d) ds z).

Lemma digit_of_value b c d : 2 <= b <= 16 -> digit_of b c d -> digit_value c = d /\ 0 <= d < b /\ c <> 46 /\ c <> 95.
Proof.
  intros Hb [x L M|x L M|x L M]; unfold digit_value.
  - replace ((48 <=? 48 + x) && (48 + x <=? 57)) with true by lia. lia.
  - replace ((48 <=? 97 + (x - 10)) && (97 + (x - 10) <=? 57)) with false by lia.
    replace ((97 <=? 97 + (x - 10)) && (97 + (x - 10) <=? 122)) with true by lia. lia.
  - replace ((48 <=? 65 + (x - 10)) && (65 + (x - 10) <=? 57)) with false by lia.
    replace ((97 <=? 65 + (x - 10)) && (65 + (x - 10) <=? 122)) with false by lia.
    replace ((65 <=? 65 + (x - 10)) && (65 + (x - 10) <=? 90)) with true by lia. lia.
Qed.
Lemma value_digit_of b c : 2 <= b <= 16 -> digit_value c < b -> digit_of b c (digit_value c).
Proof.
  intros Hb. unfold digit_value.
  destruct ((48 <=? c) && (c <=? 57)) eqn:A.
  { intros L. replace c with (48 + (c - 48)) at 1 by ring. constructor; lia. }
  destruct ((97 <=? c) && (c <=? 122)) eqn:B.
  { intros L. replace c with (97 + ((c - 97 + 10) - 10)) at 1 by ring. constructor; lia. }
  destruct ((65 <=? c) && (c <=? 90)) eqn:C.
  { intros L. replace c with (65 + ((c - 65 + 10) - 10)) at 1 by ring. constructor; lia. }
  lia.
Qed.

Lemma run_scan b fr t ds : 2 <= b <= 16 -> digit_run b t ds -> forall rest prev inval count dp z,
  scan_digits b true fr (t ++ rest) prev inval count dp z =
  scan_digits b true fr rest 48 inval (count + Z.of_nat (length ds)) dp (fold b z ds).
Proof.
  intros Hb R. induction R as [c d D|c d t ds D R IH|c d t ds D R IH]; intros rest prev inval count dp z;
    destruct (digit_of_value _ _ _ Hb D) as (V & L & N1 & N2); cbn [app scan_digits length fold_left];
    rewrite (proj2 (Z.eqb_neq c 46) N1), (proj2 (Z.eqb_neq c 95) N2), V; cbn [andb];
    rewrite (proj2 (Z.leb_gt b d)) by lia.
  - reflexivity.
  - rewrite IH. f_equal. lia.
  - cbn [Z.eqb Pos.eqb andb]. change (95 =? 46) with false. change (95 =? 95) with true. change (48 =? 48) with true. cbn [andb orb negb].
    rewrite IH, orb_false_r. f_equal. lia.
Qed.

(** what comes next when the previous character was [prev] *)
Definition after (b prev : Z) (t ds : list Z) : Prop :=
  (t = [] /\ ds = [] /\ prev <> 95) \/ digit_run b t ds \/ (prev = 48 /\ exists t', t = 95 :: t' /\ digit_run b t' ds).
Definition end_prev (prev : Z) (t : list Z) : Z := match t with [] => prev | _ => 48 end.
Definition stopb (b : Z) (fr : bool) (s : list Z) : Prop :=
  match s with [] => True | c :: _ => b <= digit_value c /\ (fr = true -> c <> 46) /\ c <> 95 end.
Lemma stop_scan b fr s prev inval count dp z : stopb b fr s -> scan_digits b true fr s prev inval count dp z = (z, count, dp, prev, inval, s).
Proof.
  destruct s as [|c s]; intros H; [reflexivity|]. destruct H as (L & P & U). cbn [scan_digits].
  destruct fr.
  - rewrite (proj2 (Z.eqb_neq c 46)) by (apply P; reflexivity). rewrite (proj2 (Z.eqb_neq c 95) U), (proj2 (Z.leb_le b _) L). reflexivity.
  - rewrite andb_false_r, (proj2 (Z.eqb_neq c 95) U), (proj2 (Z.leb_le b _) L). reflexivity.
Qed.
Lemma after_scan b fr prev t ds : 2 <= b <= 16 -> after b prev t ds -> forall rest inval count dp z,
  scan_digits b true fr (t ++ rest) prev inval count dp z =
  scan_digits b true fr rest (end_prev prev t) inval (count + Z.of_nat (length ds)) dp (fold b z ds) /\ end_prev prev t <> 95.
Proof.
  intros Hb [(-> & -> & N)|[R|(-> & t' & -> & R)]] rest inval count dp z.
  - cbn. rewrite Z.add_0_r. auto.
  - rewrite (run_scan b fr t ds Hb R). destruct t; [inversion R|]. cbn. split; [reflexivity|lia].
  - cbn [app scan_digits end_prev]. change (95 =? 46) with false. change (95 =? 95) with true. change (48 =? 48) with true. cbn [andb orb negb].
    rewrite (run_scan b fr t' ds Hb R), orb_false_r. split; [reflexivity|lia].
Qed.
Lemma after_digit b prev c t ds : 2 <= b <= 16 -> digit_value c < b -> after b 48 t ds -> after b prev (c :: t) (digit_value c :: ds).
Proof.
  intros Hb L A. pose proof (value_digit_of b c Hb L) as D. right; left.
  destruct A as [(-> & -> & _)|[R|(_ & t' & -> & R)]]; [apply run_last|apply run_next|apply run_under]; assumption.
Qed.
Lemma after_under b t ds : after b 95 t ds -> after b 48 (95 :: t) ds.
Proof. intros [(_ & _ & N)|[R|(N & _)]]; [congruence| |discriminate]. right; right. eauto. Qed.

Lemma scan_sound b : 2 <= b <= 16 -> forall s prev inval count dp z z' c' dp' p' rest,
  scan_digits b true false s prev inval count dp z = (z', c', dp', p', false, rest) -> p' <> 95 ->
  inval = false /\ exists t ds, s = t ++ rest /\ after b prev t ds /\ z' = fold b z ds /\ c' = count + Z.of_nat (length ds) /\
    dp' = dp /\ p' = end_prev prev t /\ stopb b false rest.
Proof.
  intros Hb. induction s as [|ch r IH]; intros prev inval count dp z z' c' dp' p' rest E N.
  - cbn in E. injection E as <- <- <- <- -> <-. split; [reflexivity|]. exists [], []. cbn. repeat split; auto; [left; auto|lia].
  - cbn [scan_digits] in E. rewrite andb_false_r in E. destruct (ch =? 95) eqn:U; cbn [andb] in E.
    + apply Z.eqb_eq in U. subst ch. apply IH in E as (V & t & ds & -> & A & -> & -> & -> & -> & St); [|exact N].
      apply orb_false_elim in V as (-> & V). apply negb_false_iff, Z.eqb_eq in V. subst prev. split; [reflexivity|].
      exists (95 :: t), ds. repeat split; auto; [apply after_under; exact A|].
      destruct A as [(_ & _ & X)|[R|(X & _)]]; [congruence| |discriminate]. destruct t; [inversion R|reflexivity].
    + destruct (b <=? digit_value ch) eqn:L.
      * injection E as <- <- <- <- -> <-. split; [reflexivity|]. exists [], []. cbn. apply Z.leb_le in L. apply Z.eqb_neq in U.
        repeat split; auto; [left; auto|lia|discriminate].
      * apply Z.leb_gt in L. apply IH in E as (-> & t & ds & -> & A & -> & -> & -> & -> & St); [|exact N]. split; [reflexivity|].
        exists (ch :: t), (digit_value ch :: ds). repeat split; auto; [apply after_digit; assumption| |destruct t; reflexivity].
        cbn [length]. lia.
Qed.
Lemma scan_frac_sound b : 2 <= b <= 16 -> forall s prev inval count dp z z' c' dp' p' rest,
  scan_digits b true true s prev inval count dp z = (z', c', dp', p', false, rest) -> p' <> 95 ->
  inval = false /\ exists t ds, after b prev t ds /\
    ((s = t ++ rest /\ z' = fold b z ds /\ c' = count + Z.of_nat (length ds) /\ dp' = dp /\ stopb b true rest) \/
     exists t' ds', after b 46 t' ds' /\ s = t ++ 46 :: t' ++ rest /\ z' = fold b (fold b z ds) ds' /\
       c' = count + Z.of_nat (length ds) + Z.of_nat (length ds') /\ dp' = Some (count + Z.of_nat (length ds)) /\ stopb b false rest).
Proof.
  intros Hb. induction s as [|ch r IH]; intros prev inval count dp z z' c' dp' p' rest E N.
  - cbn in E. injection E as <- <- <- <- -> <-. split; [reflexivity|]. exists [], []. split; [left; auto|]. left. cbn. repeat split; auto; lia.
  - cbn [scan_digits] in E. rewrite andb_true_r in E. destruct (ch =? 46) eqn:P.
    { apply Z.eqb_eq in P. subst ch. apply (scan_sound b Hb) in E as (V & t & ds & -> & A & -> & -> & -> & -> & St); [|exact N].
      apply orb_false_elim in V as (-> & V). apply Z.eqb_neq in V. split; [reflexivity|].
      exists [], []. split; [left; auto|]. right. exists t, ds. cbn. rewrite Z.add_0_r. auto 8. }
    destruct (ch =? 95) eqn:U; cbn [andb] in E.
    + apply Z.eqb_eq in U. subst ch. apply IH in E as (V & t & ds & A & H); [|exact N].
      apply orb_false_elim in V as (-> & V). apply negb_false_iff, Z.eqb_eq in V. subst prev. split; [reflexivity|].
      exists (95 :: t), ds. split; [apply after_under; exact A|].
      destruct H as [(-> & H)|(t' & ds' & A' & -> & H)]; [left|right; exists t', ds'; split; [exact A'|]]; auto.
    + destruct (b <=? digit_value ch) eqn:L.
      * injection E as <- <- <- <- -> <-. split; [reflexivity|]. exists [], []. apply Z.leb_le in L. apply Z.eqb_neq in U, P.
        split; [left; auto|]. left. cbn. repeat split; auto; lia.
      * apply Z.leb_gt in L. apply IH in E as (-> & t & ds & A & H); [|exact N]. split; [reflexivity|].
        exists (ch :: t), (digit_value ch :: ds). split; [apply after_digit; assumption|]. cbn [length].
        destruct H as [(-> & -> & -> & H)|(t' & ds' & A' & -> & -> & -> & -> & H)]; [left|right; exists t', ds'; split; [exact A'|]];
          repeat split; auto; try lia; try apply H. f_equal. lia.
Qed.

(** ** nat.scan *)
Lemma nat_scan_48 ch r (fr : bool) b pf :
  (if (ch =? 98) || (ch =? 66) then (2, 98, 0, 48, r)
   else if (ch =? 111) || (ch =? 79) then (8, 111, 0, 48, r)
   else if (ch =? 120) || (ch =? 88) then (16, 120, 0, 48, r)
   else if fr then (10, 0, 1, 48, ch :: r) else (8, 48, 0, 48, ch :: r)) = (b, pf, 0, 48, if pf =? 48 then ch :: r else r) ->
  nat_scan true fr (48 :: ch :: r) =
  let '(z, count, dp, prev, inval, rest) := scan_digits b true fr (if pf =? 48 then ch :: r else r) 48 false 0 None 0 in
  if inval || (prev =? 95) then None
  else if count =? 0 then if pf =? 48 then Some (0, 10, 0, rest) else None
  else Some (z, b, match dp with Some q => count - q | None => 0 end, rest).
Proof. intros E. unfold nat_scan. rewrite E. reflexivity. Qed.
Lemma prefix_scan p b s fr : base_prefix p b -> nat_scan true fr (p ++ s) =
  let '(z, count, dp, prev, inval, rest) := scan_digits b true fr s 48 false 0 None 0 in
  if inval || (prev =? 95) then None
  else if count =? 0 then None else Some (z, b, match dp with Some q => count - q | None => 0 end, rest).
Proof.
  intros P. destruct P as [c H|c H|c H]; cbn [app];
    [rewrite (nat_scan_48 c s fr 2 98)|rewrite (nat_scan_48 c s fr 8 111)|rewrite (nat_scan_48 c s fr 16 120)];
    try (destruct H as [-> | ->]; reflexivity);
    match goal with |- context [scan_digits ?b _ _ _ _ _ _ _ _] => destruct (scan_digits b true fr s 48 false 0 None 0) as [[[[[z count] dp] prev] inval] rest] end;
    reflexivity.
Qed.
Lemma prefix_base p b : base_prefix p b -> 2 <= b <= 16.
Proof. intros [c H|c H|c H]; lia. Qed.

(** the text is not that of a prefix *)
Lemma prefix_dec s : (exists p b r, s = p ++ r /\ base_prefix p b) \/ (forall p b r, s = p ++ r -> ~ base_prefix p b) /\ no_prefix true s.
Proof.
  destruct s as [|c [|ch r]].
  1,2: right; split; [intros p b r0 E H; destruct H; discriminate|exact Logic.I || (unfold no_prefix; destruct c as [|[[]|[]|]|]; try exact Logic.I)].
  - unfold no_prefix. cbn.
    repeat match goal with |- context [match ?x with _ => _ end] => destruct x; try exact Logic.I end.
  - destruct (Z.eq_dec c 48) as [->|N].
    + destruct (in_dec Z.eq_dec ch [98; 66; 111; 79; 120; 88]) as [I|I].
      * left. assert (ch = 98 \/ ch = 66 \/ (ch = 111 \/ ch = 79) \/ (ch = 120 \/ ch = 88)) as H by (cbn in I; lia).
        exists [48; ch]. destruct H as [H|[H|[H|H]]]; [exists 2|exists 2|exists 8|exists 16]; exists r; (split; [reflexivity|constructor; auto]).
      * right. split; [|exact I]. intros p b r0 E H. apply I. cbn. destruct H; injection E as -> _; lia.
    + right. split; [intros p b r0 E H; destruct H; injection E as -> _; lia|].
      unfold no_prefix. repeat match goal with |- context [match ?x with _ => _ end] => destruct x; try exact Logic.I end; congruence.
Qed.

Lemma part_after b t ds : fraction_part b t ds -> after b 46 t ds.
Proof. intros [(-> & ->)|R]; [left; repeat split; discriminate|right; left; exact R]. Qed.
Lemma after_part b t ds : after b 46 t ds -> fraction_part b t ds.
Proof. intros [(-> & -> & _)|[R|(X & _)]]; [left; auto|right; exact R|discriminate]. Qed.
Lemma pre_part p b t ds : base_prefix p b -> after b 48 t ds -> integer_part (p ++ t) b ds.
Proof.
  intros P [(-> & -> & _)|[R|(_ & t' & -> & R)]].
  - rewrite app_nil_r. apply ip_prefix, P.
  - apply (ip_prefixed p b [] t ds P); auto.
  - apply (ip_prefixed p b [95] t' ds P); auto.
Qed.
Lemma dec_part t ds : after 10 46 t ds -> integer_part t 10 ds.
Proof. intros A. apply after_part in A as [(-> & ->)|R]; [apply ip_none|apply ip_decimal, R]. Qed.
Lemma part_inv t b ds : integer_part t b ds -> (b = 10 /\ after 10 46 t ds) \/ exists p t', t = p ++ t' /\ base_prefix p b /\ after b 48 t' ds.
Proof.
  intros [|t0 ds0 R|p b0 P|p b0 u t0 ds0 P U R].
  - left. split; [reflexivity|]. left. repeat split; discriminate.
  - left. split; [reflexivity|]. right; left; exact R.
  - right. exists p, []. rewrite app_nil_r. repeat split; [exact P|]. left. repeat split; discriminate.
  - right. exists p, (u ++ t0). repeat split; [exact P|]. destruct U as [-> | ->]; [right; left; exact R|right; right; split; [reflexivity|exists t0; split; [reflexivity|exact R]]].
Qed.

Definition finish (b : Z) (r : Z * Z * option Z * Z * bool * list Z) : option (Z * Z * Z * list Z) :=
  let '(z, count, dp, prev, inval, rest) := r in
  if inval || (prev =? 95) then None
  else if count =? 0 then None else Some (z, b, match dp with Some q => count - q | None => 0 end, rest).
Lemma finish_inv b z count dp prev inval rest m base f rest' : finish b (z, count, dp, prev, inval, rest) = Some (m, base, f, rest') ->
  inval = false /\ prev <> 95 /\ count <> 0 /\ m = z /\ base = b /\ f = match dp with Some q => count - q | None => 0 end /\ rest' = rest.
Proof.
  unfold finish. destruct inval; [discriminate|]. cbn [orb]. destruct (prev =? 95) eqn:P; [discriminate|]. destruct (count =? 0) eqn:C; [discriminate|].
  intros E. injection E as <- <- <- <-. apply Z.eqb_neq in P, C. auto 8.
Qed.
Lemma len_nz {X} (l : list X) : Z.of_nat (length l) <> 0 -> l <> [].
Proof. intros H ->. apply H. reflexivity. Qed.
Lemma nz_len {X} (l : list X) : l <> [] -> Z.of_nat (length l) <> 0.
Proof. destruct l; [congruence|]. cbn [length]. lia. Qed.

Lemma scan_mantissa_sound prev b s m base f rest : 2 <= b <= 16 -> (forall t ds, after b prev t ds -> True) ->
  finish b (scan_digits b true true s prev false 0 None 0) = Some (m, base, f, rest) ->
  base = b /\ exists t ds, after b prev t ds /\
    ((s = t ++ rest /\ ds <> [] /\ m = in_base b ds /\ f = 0 /\ stopb b true rest) \/
     exists t' ds', fraction_part b t' ds' /\ s = t ++ 46 :: t' ++ rest /\ ds ++ ds' <> [] /\ m = in_base b (ds ++ ds') /\
       f = Z.of_nat (length ds') /\ stopb b false rest).
Proof.
  intros Hb _ E. destruct (scan_digits b true true s prev false 0 None 0) as [[[[[z count] dp] pv] inval] rest'] eqn:S.
  apply finish_inv in E as (-> & N & C & -> & -> & -> & ->). split; [reflexivity|].
  apply (scan_frac_sound b Hb) in S as (_ & t & ds & A & H); [|exact N]. exists t, ds. split; [exact A|].
  destruct H as [(-> & -> & -> & -> & St)|(t' & ds' & A' & -> & -> & -> & -> & St)].
  - left. repeat split; auto. apply len_nz. lia.
  - right. exists t', ds'. split; [apply after_part, A'|]. repeat split; auto; try lia.
    + apply len_nz. rewrite app_length. lia.
    + unfold in_base. rewrite fold_left_app. reflexivity.
Qed.
Lemma nat_scan_sound s m base f rest : nat_scan true true s = Some (m, base, f, rest) ->
  exists t, s = t ++ rest /\ mantissa_literal t base m f /\ stopb base false rest.
Proof.
  intros E. assert (W : forall fr r, stopb base fr r -> stopb base false r).
  { intros fr [|c r]; [auto|]. cbn. intros (A & _ & B). repeat split; auto; discriminate. }
  destruct (prefix_dec s) as [(p & b & r & -> & P)|(_ & NP)].
  - rewrite (prefix_scan p b r true P) in E. pose proof (prefix_base p b P) as Hb.
    apply (scan_mantissa_sound 48 b r) in E as (-> & t & ds & A & H); [|exact Hb|auto].
    pose proof (pre_part p b t ds P A) as IP.
    destruct H as [(-> & N & -> & -> & St)|(t' & ds' & F & -> & N & -> & -> & St)].
    + exists (p ++ t). rewrite app_assoc. split; [reflexivity|]. split; [apply ml_integer; assumption|apply (W true), St].
    + exists ((p ++ t) ++ 46 :: t'). rewrite <- !app_assoc. cbn [app]. split; [reflexivity|]. split; [|exact St].
      rewrite app_assoc. apply ml_point; assumption.
  - rewrite (nat_scan10_true true s NP) in E. change (finish 10 (scan_digits 10 true true s 46 false 0 None 0) = Some (m, base, f, rest)) in E.
    apply (scan_mantissa_sound 46 10 s) in E as (-> & t & ds & A & H); [|lia|auto]. pose proof (dec_part t ds A) as IP.
    destruct H as [(-> & N & -> & -> & St)|(t' & ds' & F & -> & N & -> & -> & St)].
    + exists t. split; [reflexivity|]. split; [apply ml_integer; assumption|apply (W true), St].
    + exists (t ++ 46 :: t'). rewrite <- !app_assoc. cbn [app]. split; [reflexivity|]. split; [|exact St]. apply ml_point; assumption.
Qed.

Lemma finish_some b z count dp prev rest : prev <> 95 -> count <> 0 ->
  finish b (z, count, dp, prev, false, rest) = Some (z, b, match dp with Some q => count - q | None => 0 end, rest).
Proof. intros P C. unfold finish. apply Z.eqb_neq in P, C. rewrite P, C. reflexivity. Qed.
Lemma scan_mantissa_complete b prev t ds rest : 2 <= b <= 16 -> after b prev t ds -> ds <> [] -> stopb b true rest ->
  finish b (scan_digits b true true (t ++ rest) prev false 0 None 0) = Some (in_base b ds, b, 0, rest).
Proof.
  intros Hb A N St. destruct (after_scan b true prev t ds Hb A rest false 0 None 0) as (-> & P). rewrite (stop_scan b true rest) by exact St.
  rewrite finish_some; [reflexivity|exact P|]. pose proof (nz_len ds N). lia.
Qed.
Lemma scan_mantissa_complete' b prev t ds t' ds' rest : 2 <= b <= 16 -> after b prev t ds -> fraction_part b t' ds' -> ds ++ ds' <> [] -> stopb b true rest ->
  finish b (scan_digits b true true (t ++ 46 :: t' ++ rest) prev false 0 None 0) = Some (in_base b (ds ++ ds'), b, Z.of_nat (length ds'), rest).
Proof.
  intros Hb A F N St. destruct (after_scan b true prev t ds Hb A (46 :: t' ++ rest) false 0 None 0) as (-> & P). cbn [scan_digits].
  change (46 =? 46) with true. cbn [andb orb]. rewrite (proj2 (Z.eqb_neq _ _) P).
  apply part_after in F. destruct (after_scan b false 46 t' ds' Hb F rest false (0 + Z.of_nat (length ds)) (Some (0 + Z.of_nat (length ds))) (fold b 0 ds)) as (-> & P').
  rewrite (stop_scan b false rest).
  - rewrite finish_some; [|exact P'|pose proof (nz_len _ N) as L; rewrite app_length in L; lia]. unfold in_base. rewrite fold_left_app. do 3 f_equal. lia.
  - destruct rest; [exact Logic.I|]. destruct St as (X & _ & Y). repeat split; auto; discriminate.
Qed.
Lemma run_head b t ds : 2 <= b <= 16 -> digit_run b t ds -> exists c r d, t = c :: r /\ digit_of b c d.
Proof. intros Hb [c d D|c d r ds' D R|c d r ds' D R]; eauto 6. Qed.
(** a decimal number is not taken for a prefix *)
Lemma run_no_prefix t ds rest : digit_run 10 t ds -> match rest with [] => True | c :: _ => ~ In c [98; 66; 111; 79; 120; 88] end -> no_prefix true (t ++ rest).
Proof.
  assert (K : forall x y r, x <> 48 \/ ~ In y [98; 66; 111; 79; 120; 88] -> no_prefix true (x :: y :: r)).
  { intros x y r H. destruct (Z.eq_dec x 48) as [->|N]; [destruct H as [H|H]; [congruence|exact H]|].
    unfold no_prefix. repeat match goal with |- context [match ?z with _ => _ end] => destruct z; try exact Logic.I end; congruence. }
  assert (K1 : forall x, no_prefix true [x]).
  { intros x. unfold no_prefix. repeat match goal with |- context [match ?z with _ => _ end] => destruct z; try exact Logic.I end. }
  assert (D10 : forall y d, digit_of 10 y d -> ~ In y [98; 66; 111; 79; 120; 88]).
  { intros y d H I. destruct H; cbn [In] in I; lia. }
  intros R H. destruct R as [c d D|c d t ds D R|c d t ds D R]; cbn [app].
  - destruct rest as [|y r]; [apply K1|]. apply K. auto.
  - destruct R; cbn [app]; apply K; right; eapply D10; eassumption.
  - apply K. right. cbn. lia.
Qed.
Lemma nat_scan_complete t base m f rest : mantissa_literal t base m f -> stopb base true rest ->
  match rest with [] => True | c :: _ => ~ In c [98; 66; 111; 79; 120; 88] end -> nat_scan true true (t ++ rest) = Some (m, base, f, rest).
Proof.
  intros M St NP. destruct M as [t b ds IP N|t b ds t' ds' IP F N].
  - destruct (part_inv _ _ _ IP) as [(-> & A)|(p & t' & -> & P & A)].
    + rewrite nat_scan10_true; [exact (scan_mantissa_complete 10 46 t ds rest ltac:(lia) A N St)|].
      apply after_part in A as [(-> & ->)|R]; [congruence|]. eapply run_no_prefix; eassumption.
    + rewrite <- app_assoc, (prefix_scan p b _ true P). exact (scan_mantissa_complete b 48 t' ds rest (prefix_base _ _ P) A N St).
  - destruct (part_inv _ _ _ IP) as [(-> & A)|(p & t0 & -> & P & A)]; rewrite <- !app_assoc; cbn [app].
    + rewrite nat_scan10_true; [exact (scan_mantissa_complete' 10 46 t ds t' ds' rest ltac:(lia) A F N St)|].
      apply after_part in A as [(-> & ->)|R]; [exact Logic.I|]. eapply run_no_prefix; [eassumption|]. cbn. lia.
    + rewrite (prefix_scan p b _ true P). exact (scan_mantissa_complete' b 48 t0 ds t' ds' rest (prefix_base _ _ P) A F N St).
Qed.

(** ** integers *)
Lemma int_scan_sound prev b s z count dp p rest : 2 <= b <= 16 -> scan_digits b true false s prev false 0 None 0 = (z, count, dp, p, false, rest) -> p <> 95 ->
  exists t ds, s = t ++ rest /\ after b prev t ds /\ z = in_base b ds /\ count = Z.of_nat (length ds) /\ dp = None /\ stopb b false rest.
Proof.
  intros Hb E N. apply (scan_sound b Hb) in E as (_ & t & ds & H1 & H2 & H3 & H4 & H5 & _ & H7); [|exact N]. exists t, ds. repeat split; auto.
Qed.
Lemma run_text_nil b ds : ~ digit_run b [] ds. Proof. intros H. inversion H. Qed.
Lemma run_ds_nil b t : ~ digit_run b t []. Proof. intros H. inversion H. Qed.
Lemma prefix_not s : match s with 48 :: _ :: _ => False | _ => True end -> nat_scan true false s = nat_scan10 true false s.
Proof. intros H. apply nat_scan10_true. exact H. Qed.
Lemma nat_scan_int s n b f : nat_scan true false s = Some (n, b, f, []) -> integer_literal s n.
Proof.
  intros E. destruct (prefix_dec s) as [(p & b0 & r & -> & P)|(NP & NP')].
  - rewrite (prefix_scan p b0 r false P) in E. pose proof (prefix_base p b0 P) as Hb.
    destruct (scan_digits b0 true false r 48 false 0 None 0) as [[[[[z count] dp] pv] inval] rest] eqn:D.
    apply finish_inv in E as (-> & N & C & -> & -> & -> & <-). apply int_scan_sound in D as (t & ds & -> & A & -> & -> & -> & _); [|exact Hb|exact N].
    rewrite app_nil_r. destruct A as [(-> & -> & _)|[R|(_ & t' & -> & R)]].
    + cbn in C. congruence.
    + apply (il_prefixed p b0 [] t ds); auto.
    + apply (il_prefixed p b0 [95] t' ds); auto.
  - assert (Z0 : (exists ch r, s = 48 :: ch :: r) \/ match s with 48 :: _ :: _ => False | _ => True end).
    { destruct s as [|c [|ch r]]; [right; exact Logic.I| |].
      - right. repeat match goal with |- context [match ?z with _ => _ end] => destruct z; try exact Logic.I end.
      - destruct (Z.eq_dec c 48) as [->|N]; [left; eauto|right].
        repeat match goal with |- context [match ?z with _ => _ end] => destruct z; try exact Logic.I end; congruence. }
    destruct Z0 as [(ch & r & ->)|H].
    + rewrite (nat_scan_48 ch r false 8 48) in E.
      2:{ cbn in NP'. change (48 =? 48) with true. cbn [fst].
          replace ((ch =? 98) || (ch =? 66)) with false by lia. replace ((ch =? 111) || (ch =? 79)) with false by lia.
          replace ((ch =? 120) || (ch =? 88)) with false by lia. reflexivity. }
      change (48 =? 48) with true in E. cbv iota in E.
      destruct (scan_digits 8 true false (ch :: r) 48 false 0 None 0) as [[[[[z count] dp] pv] inval] rest] eqn:D.
      destruct inval; [discriminate|]. cbn [orb] in E. destruct (pv =? 95) eqn:PV; [discriminate|]. apply Z.eqb_neq in PV.
      apply int_scan_sound in D as (t & ds & D & A & -> & -> & -> & _); [|lia|exact PV].
      destruct (Z.of_nat (length ds) =? 0) eqn:C.
      * apply Z.eqb_eq in C. injection E as <- <- <- ->. rewrite app_nil_r in D. subst t.
        destruct ds; [|cbn [length] in C; lia]. destruct A as [(X & _)|[R|(_ & t' & _ & R)]]; [discriminate|inversion R|inversion R].
      * injection E as <- <- <- ->. rewrite app_nil_r in D. subst t. apply Z.eqb_neq in C.
        destruct A as [(X & _)|[R|(_ & t' & -> & R)]]; [discriminate| |].
        -- apply (il_prefixed [48] 8 [] (ch :: r) ds); auto.
        -- apply (il_prefixed [48] 8 [95] t' ds); auto.
    + rewrite prefix_not in E by exact H. unfold nat_scan10 in E.
      destruct (scan_digits 10 true false s 46 false 0 None 0) as [[[[[z count] dp] pv] inval] rest] eqn:D.
      apply (finish_inv 10) in E as (-> & N & C & -> & -> & -> & <-). apply int_scan_sound in D as (t & ds & -> & A & -> & -> & -> & _); [|lia|exact N].
      rewrite app_nil_r in *. apply after_part in A as [(-> & ->)|R]; [cbn in C; congruence|].
      destruct (Z.eq_dec (hd 48 t) 48) as [E48|E48]; [|apply il_decimal; assumption].
      destruct t as [|c [|c2 t]]; [inversion R| |]; cbn [hd] in E48; subst c; [|destruct H].
      inversion R as [c d Dg| |]; subst. destruct (digit_of_value 10 48 d ltac:(lia) Dg) as (V & _). change (digit_value 48) with 0 in V. subst d. exact il_zero.
      exfalso. eapply run_text_nil; eassumption.
Qed.
Lemma int_nat_scan s n : integer_literal s n -> exists b, nat_scan true false s = Some (n, b, 0, []).
Proof.
  intros [|t ds R H|p b u t ds P U R].
  - exists 10. reflexivity.
  - exists 10. rewrite prefix_not.
    2:{ destruct t as [|c t]; [exact Logic.I|]. cbn [hd] in H. repeat match goal with |- context [match ?z with _ => _ end] => destruct z; try exact Logic.I end; congruence. }
    unfold nat_scan10. rewrite <- (app_nil_r t), (run_scan 10 false t ds ltac:(lia) R). cbn [scan_digits].
    apply (finish_some 10 (in_base 10 ds) (0 + Z.of_nat (length ds)) None 48 []); [discriminate|]. destruct ds; [destruct (run_ds_nil _ _ R)|]. cbn [length]. lia.
  - assert (A : after b 48 (u ++ t) ds).
    { destruct U as [-> | ->]; [right; left; exact R|right; right; split; [reflexivity|exists t; split; [reflexivity|exact R]]]. }
    assert (NZ : Z.of_nat (length ds) <> 0) by (destruct ds; [destruct (run_ds_nil _ _ R)|cbn [length]; lia]).
    destruct P as [P|(-> & ->)].
    + exists b. rewrite (prefix_scan p b (u ++ t) false P). pose proof (prefix_base p b P) as Hb. rewrite <- (app_nil_r (u ++ t)).
      destruct (after_scan b false 48 (u ++ t) ds Hb A [] false 0 None 0) as (-> & Pv). cbn [scan_digits]. apply (finish_some b (in_base b ds) (0 + Z.of_nat (length ds)) None _ []); [exact Pv|lia].
    + exists 8. destruct (u ++ t) as [|ch r] eqn:UT; [destruct u; [|discriminate]; cbn in UT; subst t; destruct (run_text_nil _ _ R)|].
      cbn [app]. rewrite (nat_scan_48 ch r false 8 48).
      2:{ assert (ch <> 98 /\ ch <> 66 /\ ch <> 111 /\ ch <> 79 /\ ch <> 120 /\ ch <> 88) as X.
          { destruct U as [-> | ->]; cbn in UT; [|injection UT as <- _; lia]. subst t. inversion R as [c d Dg| c d t0 d0 Dg|c d t0 d0 Dg]; subst; destruct Dg; lia. }
          change (48 =? 48) with true. cbv iota.
          replace ((ch =? 98) || (ch =? 66)) with false by lia. replace ((ch =? 111) || (ch =? 79)) with false by lia.
          replace ((ch =? 120) || (ch =? 88)) with false by lia. reflexivity. }
      change (48 =? 48) with true. cbv iota. rewrite <- (app_nil_r (ch :: r)).
      destruct (after_scan 8 false 48 (ch :: r) ds ltac:(lia) A [] false 0 None 0) as (-> & Pv). cbn [scan_digits]. cbn [orb].
      rewrite (proj2 (Z.eqb_neq _ _) Pv), (proj2 (Z.eqb_neq _ _)) by lia. reflexivity.
Qed.

(** ** exponents *)
Lemma exp_as_scan s : forall prev inval count dp v z c dp' p iv rest, 0 <= count ->
  scan_digits 10 true false s prev inval count dp v = (z, c, dp', p, iv, rest) ->
  exp_digits true s prev inval (0 <? count) v = (z, 0 <? c, p, iv, rest).
Proof.
  induction s as [|ch r IH]; intros prev inval count dp v z c dp' p iv rest Hc E.
  - cbn in *. injection E as <- <- _ <- <- <-. reflexivity.
  - cbn [scan_digits exp_digits] in *. rewrite andb_false_r in E. rewrite andb_true_r in *.
    destruct (ch =? 95) eqn:U.
    + apply Z.eqb_eq in U. subst ch. change ((48 <=? 95) && (95 <=? 57)) with false. cbv iota. eapply IH; eassumption.
    + assert (L : (10 <=? digit_value ch) = negb ((48 <=? ch) && (ch <=? 57))).
      { destruct ((48 <=? ch) && (ch <=? 57)) eqn:L; cbn [negb]; [rewrite dv_digit by lia; lia|apply Z.leb_le, dv_not; lia]. }
      rewrite L in E. destruct ((48 <=? ch) && (ch <=? 57)) eqn:L'; cbn [negb] in E.
      * apply IH in E; [|lia]. rewrite dv_digit in E by lia. replace (0 <? count + 1) with true in E by lia. exact E.
      * injection E as <- <- _ <- <- <-. reflexivity.
Qed.
Lemma after_sign_app r : exists sg neg r', after_sign r = (neg, r') /\ r = sg ++ r' /\ ((sg, neg) = ([], false) \/ (sg, neg) = ([43], false) \/ (sg, neg) = ([45], true)).
Proof.
  destruct r as [|c r]; [exists [], false, []; auto|].
  destruct (Z.eq_dec c 45) as [->|A]; [exists [45], true, r; auto|]. destruct (Z.eq_dec c 43) as [->|B]; [exists [43], false, r; auto|].
  rewrite after_sign_other by assumption. exists [], false, (c :: r). auto.
Qed.
Lemma sign_after (sg : list Z) (neg : bool) t : (sg, neg) = ([], false) \/ (sg, neg) = ([43], false) \/ (sg, neg) = ([45], true) ->
  match t with [] => True | c :: _ => c <> 45 /\ c <> 43 end -> after_sign (sg ++ t) = (neg, t).
Proof.
  intros [H|[H|H]] T; injection H as -> ->; cbn [app]; try reflexivity. destruct t as [|c t]; [reflexivity|]. apply after_sign_other; apply T.
Qed.
Lemma nonneg_in_base b ds t : 2 <= b <= 16 -> digit_run b t ds -> 0 <= in_base b ds.
Proof.
  intros Hb R. unfold in_base. assert (K : forall z, 0 <= z -> 0 <= fold b z ds).
  { induction R as [c d D|c d t ds D R IH|c d t ds D R IH]; intros z Hz; destruct (digit_of_value _ _ _ Hb D) as (_ & L & _); cbn [fold_left]; try apply IH; nia. }
  apply K. lia.
Qed.
Lemma exp_sound base s x b : stopb base false s -> 2 <= base <= 16 -> scan_exponent true s = Some (x, b, []) -> exponent_literal base s b x /\ int64 x.
Proof.
  intros St Hb E. destruct s as [|c r].
  - cbn in E. injection E as <- <-. split; [apply el_none|unfold int64; lia].
  - set (eb := if (c =? 101) || (c =? 69) then 10 else if (c =? 112) || (c =? 80) then 2 else 0) in *.
    destruct (Z.eq_dec eb 0) as [Z0|NZ].
    { unfold scan_exponent in E. fold eb in E. rewrite Z0 in E. cbn in E. discriminate. }
    rewrite (scan_exponent_unfold true c r eb NZ eq_refl) in E. destruct (after_sign_app r) as (sg & neg & r' & AS & -> & SG). rewrite AS in E.
    destruct (scan_digits 10 true false r' 46 false 0 None 0) as [[[[[z count] dp] pv] iv] rest] eqn:D.
    pose proof (exp_as_scan r' 46 false 0 None 0 z count dp pv iv rest ltac:(lia) D) as X. change (0 <? 0) with false in X. rewrite X in E.
    destruct (0 <? count) eqn:HC; cbn [negb] in E; [|discriminate].
    destruct (((if neg then - z else z) <? - 2 ^ 63) || (2 ^ 63 <=? (if neg then - z else z))) eqn:RG; [discriminate|].
    destruct iv; [discriminate|]. cbn [orb] in E. destruct (pv =? 95) eqn:PV; [discriminate|]. apply Z.eqb_neq in PV. injection E as <- <- ->.
    apply int_scan_sound in D as (t & ds & -> & A & -> & -> & -> & _); [|lia|exact PV]. rewrite app_nil_r in *.
    apply after_part in A as [(-> & ->)|R]; [cbn in HC; discriminate|]. split; [|unfold int64; lia].
    apply el_some; [|exact SG|exact R].
    destruct St as (DV & _ & _). unfold eb in *. destruct ((c =? 101) || (c =? 69)) eqn:C1.
    + left. split; [lia|]. split; [reflexivity|]. intros ->. assert (c = 101 \/ c = 69) as [-> | ->] by lia; vm_compute in DV; apply DV; reflexivity.
    + destruct ((c =? 112) || (c =? 80)) eqn:C2; [|congruence]. right. split; [lia|reflexivity].
Qed.
Lemma exp_complete base s x b : exponent_literal base s b x -> int64 x -> scan_exponent true s = Some (x, b, []).
Proof.
  intros [|c b0 neg sg t ds C SG R] I; [reflexivity|].
  assert (NZ : b0 <> 0) by lia.
  assert (EB : (if (c =? 101) || (c =? 69) then 10 else if (c =? 112) || (c =? 80) then 2 else 0) = b0).
  { destruct C as [(C & -> & _)|(C & ->)]; [replace ((c =? 101) || (c =? 69)) with true by lia; reflexivity|].
    replace ((c =? 101) || (c =? 69)) with false by lia. replace ((c =? 112) || (c =? 80)) with true by lia. reflexivity. }
  rewrite (scan_exponent_unfold true c (sg ++ t) b0 NZ EB), (sign_after sg neg t SG).
  2:{ destruct R as [c' d Dg|c' d t' ds' Dg|c' d t' ds' Dg]; destruct Dg; lia. }
  pose proof (run_scan 10 false t ds ltac:(lia) R [] 46 false 0 None 0) as X. rewrite app_nil_r in X. cbn [scan_digits] in X.
  apply exp_as_scan in X; [|lia]. change (0 <? 0) with false in X. rewrite X.
  assert (0 < Z.of_nat (length ds)) by (destruct ds; [destruct (run_ds_nil _ _ R)|cbn [length]; lia]).
  replace (0 <? 0 + Z.of_nat (length ds)) with true by lia. cbn [negb orb]. change (48 =? 95) with false. cbv iota.
  change (fold 10 0 ds) with (in_base 10 ds).
  unfold int64 in I. replace (((if neg then - in_base 10 ds else in_base 10 ds) <? - 2 ^ 63) || (2 ^ 63 <=? (if neg then - in_base 10 ds else in_base 10 ds))) with false by (destruct neg; lia).
  reflexivity.
Qed.

(** ** the whole text *)
Lemma split_slash_some s a b : split_slash s = Some (a, b) -> s = a ++ 47 :: b.
Proof.
  revert a b. induction s as [|c s IH]; intros a b E; [discriminate|]. cbn [split_slash] in E. destruct (c =? 47) eqn:C.
  - apply Z.eqb_eq in C. injection E as <- <-. subst c. reflexivity.
  - destruct (split_slash s) as [[x y]|]; [|discriminate]. injection E as <- <-. cbn. f_equal. apply IH. reflexivity.
Qed.
Lemma split_slash_none_inv s : split_slash s = None -> ~ In 47 s.
Proof.
  induction s as [|c s IH]; intros E I; [destruct I|]. cbn [split_slash] in E. destruct (c =? 47) eqn:C; [discriminate|].
  destruct (split_slash s) as [[x y]|]; [discriminate|]. apply Z.eqb_neq in C. destruct I as [I|I]; [congruence|]. exact (IH eq_refl I).
Qed.
Lemma run_no_slash b t ds : digit_run b t ds -> ~ In 47 t.
Proof.
  intros R. induction R as [c d D|c d t ds D R IH|c d t ds D R IH]; cbn [In]; destruct D; intuition lia.
Qed.
Lemma prefix_no_slash p b : base_prefix p b -> ~ In 47 p.
Proof. intros [c H|c H|c H]; cbn [In]; lia. Qed.
Lemma not_in_app {X} (x : X) a b : ~ In x a -> ~ In x b -> ~ In x (a ++ b).
Proof. intros A B I. apply in_app_or in I as [I|I]; auto. Qed.
Lemma under_no_slash u : u = [] \/ u = [95] -> ~ In 47 u.
Proof. intros [-> | ->]; cbn [In]; lia. Qed.
Lemma int_no_slash a n : integer_literal a n -> ~ In 47 a.
Proof.
  intros [|t ds R H|p b u t ds P U R]; [cbn; lia|eapply run_no_slash, R|].
  apply not_in_app; [destruct P as [P|(-> & _)]; [eapply prefix_no_slash, P|cbn; lia]|apply not_in_app; [apply under_no_slash, U|eapply run_no_slash, R]].
Qed.
Lemma mant_no_slash t b m f : mantissa_literal t b m f -> ~ In 47 t.
Proof.
  assert (K : forall t b ds, integer_part t b ds -> ~ In 47 t).
  { intros t0 b0 ds [|t1 ds1 R|p b1 P|p b1 u t1 ds1 P U R]; [cbn; lia|eapply run_no_slash, R|eapply prefix_no_slash, P|].
    apply not_in_app; [eapply prefix_no_slash, P|apply not_in_app; [apply under_no_slash, U|eapply run_no_slash, R]]. }
  intros [t0 b0 ds IP N|t0 b0 ds t' ds' IP F N]; [eapply K, IP|].
  apply not_in_app; [eapply K, IP|]. cbn [In]. intros [X|I]; [lia|]. destruct F as [(-> & _)|R]; [destruct I|exact (run_no_slash _ _ _ R I)].
Qed.
Lemma exp_no_slash base t b x : exponent_literal base t b x -> ~ In 47 t.
Proof.
  intros [|c b0 neg sg t0 ds C SG R]; [cbn; lia|]. cbn [In]. intros [X|I]; [lia|]. apply in_app_or in I as [I|I]; [|exact (run_no_slash _ _ _ R I)].
  destruct SG as [E|[E|E]]; injection E as -> _; cbn [In] in I; lia.
Qed.
Lemma sign_no_slash sg neg : sign_text sg neg -> ~ In 47 sg.
Proof. intros []; cbn [In]; lia. Qed.
Lemma sign_pairs sg neg : sign_text sg neg <-> (sg, neg) = ([], false) \/ (sg, neg) = ([43], false) \/ (sg, neg) = ([45], true).
Proof. split; [intros []; auto|]. intros [E|[E|E]]; injection E as -> ->; constructor. Qed.
Lemma int_head a n : integer_literal a n -> a <> [] /\ match a with [] => True | c :: _ => c <> 45 /\ c <> 43 end.
Proof.
  assert (K : forall b t ds, digit_run b t ds -> t <> [] /\ match t with [] => True | c :: _ => c <> 45 /\ c <> 43 end).
  { intros b t ds [c d D|c d t' ds' D R|c d t' ds' D R]; (split; [discriminate|]); destruct D; lia. }
  intros [|t ds R H|p b u t ds P U R]; [split; [discriminate|lia]|eapply K, R|].
  destruct P as [[c H|c H|c H]|(-> & _)]; cbn [app]; (split; [discriminate|lia]).
Qed.
Lemma mant_head t b m f : mantissa_literal t b m f -> t <> [] /\ match t with [] => True | c :: _ => c <> 45 /\ c <> 43 end.
Proof.
  assert (K : forall b t ds, digit_run b t ds -> t <> [] /\ match t with [] => True | c :: _ => c <> 45 /\ c <> 43 end).
  { intros b0 t0 ds [c d D|c d t' ds' D R|c d t' ds' D R]; (split; [discriminate|]); destruct D; lia. }
  assert (K' : forall t b ds, integer_part t b ds -> t = [] /\ ds = [] \/ t <> [] /\ match t with [] => True | c :: _ => c <> 45 /\ c <> 43 end).
  { intros t0 b0 ds [|t1 ds1 R|p b1 P|p b1 u t1 ds1 P U R]; [auto|right; eapply K, R|right|right];
      destruct P as [c H|c H|c H]; cbn [app]; (split; [discriminate|lia]). }
  intros [t0 b0 ds IP N|t0 b0 ds t' ds' IP F N]; destruct (K' _ _ _ IP) as [(-> & ->)|(X & Y)]; auto; try congruence.
  - cbn [app]. split; [discriminate|lia].
  - destruct t0; [congruence|]. cbn [app]. split; [discriminate|exact Y].
Qed.
Lemma mant_base t b m f : mantissa_literal t b m f -> (b = 2 \/ b = 8 \/ b = 10 \/ b = 16) /\ 0 <= f.
Proof.
  assert (K' : forall t b ds, integer_part t b ds -> b = 2 \/ b = 8 \/ b = 10 \/ b = 16).
  { intros t0 b0 ds [|t1 ds1 R|p b1 P|p b1 u t1 ds1 P U R]; auto; destruct P; auto. }
  intros [t0 b0 ds IP N|t0 b0 ds t' ds' IP F N]; (split; [eapply K', IP|lia]).
Qed.
Lemma exp_base base t b x : exponent_literal base t b x -> (b = 10 \/ b = 2) /\ match t with [] => True | c :: _ => c <> 46 /\ c <> 95 /\ ~ In c [98; 66; 111; 79; 120; 88] end.
Proof. intros [|c b0 neg sg t0 ds C SG R]; [auto|]. cbn [In]. lia. Qed.
Lemma exp_stop_base base t b x : 2 <= base <= 16 -> base <> 11 /\ base <> 12 /\ base <> 13 /\ base <> 14 /\ base <> 15 -> exponent_literal base t b x -> stopb base true t.
Proof.
  intros Hb Hn [|c b0 neg sg t0 ds C SG R]; [exact Logic.I|]. repeat split; [|intros _; lia|lia].
  destruct C as [([-> | ->] & _ & N)|([-> | ->] & _)]; [change (digit_value 101) with 14|change (digit_value 69) with 14|change (digit_value 112) with 25|change (digit_value 80) with 25]; lia.
Qed.

(** values *)
Lemma Qpower_nz a n : ~ (inject_Z a == 0)%Q -> ~ (inject_Z a ^ n == 0)%Q.
Proof. intros H. apply Qpower_not_0. exact H. Qed.
Lemma injZ_nz a : a <> 0 -> ~ (inject_Z a == 0)%Q.
Proof. intros N E. apply N. unfold Qeq in E. cbn in E. lia. Qed.
Lemma pow_base base f : base = 2 \/ base = 8 \/ base = 10 \/ base = 16 ->
  (inject_Z base ^ (- f) == inject_Z 5 ^ (if base =? 10 then - f else 0) * inject_Z 2 ^ (- f * (if base =? 16 then 4 else if base =? 8 then 3 else 1)))%Q.
Proof.
  assert (T : ~ (inject_Z 2 == 0)%Q) by (apply injZ_nz; lia).
  intros [-> |[-> |[-> | ->]]]; cbn [Z.eqb Pos.eqb].
  - change (2 =? 10) with false; change (2 =? 16) with false; change (2 =? 8) with false; cbv iota. rewrite Z.mul_1_r. change (inject_Z 5 ^ 0)%Q with 1%Q. ring.
  - change (8 =? 10) with false; change (8 =? 16) with false; change (8 =? 8) with true; cbv iota.
    rewrite (Z.mul_comm (- f) 3), Qpower_mult. change (inject_Z 5 ^ 0)%Q with 1%Q. change (inject_Z 2 ^ 3)%Q with (inject_Z 8). ring.
  - change (10 =? 10) with true; change (10 =? 16) with false; change (10 =? 8) with false; cbv iota. rewrite Z.mul_1_r.
    change (inject_Z 10) with (inject_Z 5 * inject_Z 2)%Q. apply Qmult_power.
  - change (16 =? 10) with false; change (16 =? 16) with true; cbv iota.
    rewrite (Z.mul_comm (- f) 4), Qpower_mult. change (inject_Z 5 ^ 0)%Q with 1%Q. change (inject_Z 2 ^ 4)%Q with (inject_Z 16). ring.
Qed.
Lemma pow_exp b x : b = 10 \/ b = 2 -> (inject_Z b ^ x == inject_Z 5 ^ (if (b =? 10)%Z then x else 0%Z) * inject_Z 2 ^ x)%Q.
Proof.
  intros [-> | ->]; [change (10 =? 10) with true; cbv iota; change (inject_Z 10) with (inject_Z 5 * inject_Z 2)%Q; apply Qmult_power|].
  change (2 =? 10) with false; cbv iota. change (inject_Z 5 ^ 0)%Q with 1%Q. ring.
Qed.
Lemma value_pow base f b x m : (base = 2 \/ base = 8 \/ base = 10 \/ base = 16) -> b = 10 \/ b = 2 ->
  let exp5 := (if base =? 10 then - f else 0) + (if b =? 10 then x else 0) in
  let exp2 := - f * (if base =? 16 then 4 else if base =? 8 then 3 else 1) + x in
  (Qmake (m * fst (pow_nd 5 exp5) * fst (pow_nd 2 exp2)) (Z.to_pos (snd (pow_nd 5 exp5) * snd (pow_nd 2 exp2))) ==
   inject_Z m * inject_Z base ^ (- f) * inject_Z b ^ x)%Q.
Proof.
  intros HB Hb exp5 exp2. destruct (pow_nd_spec 5 exp5 ltac:(lia)) as (P1 & P2 & P3). destruct (pow_nd_spec 2 exp2 ltac:(lia)) as (P4 & P5 & P6).
  apply make_div; [nia|]. rewrite !inject_Z_mult. rewrite P3, P6. rewrite (pow_base base f HB), (pow_exp b x Hb).
  unfold exp5, exp2. rewrite (Qpower_plus (inject_Z 5)), (Qpower_plus (inject_Z 2)) by (apply injZ_nz; lia). ring.
Qed.

Lemma exp2_eq base f x : base = 2 \/ base = 8 \/ base = 10 \/ base = 16 ->
  (if base =? 8 then - (3 * f) else if base =? 16 then - (4 * f) else - f) + x = - f * (if base =? 16 then 4 else if base =? 8 then 3 else 1) + x.
Proof. intros [-> |[-> |[-> | ->]]]; vm_compute Z.eqb; cbv iota; ring. Qed.

Lemma Qred_idem y : Qred (Qred y) = Qred y.
Proof. apply Qred_complete. apply Qred_correct. Qed.
Local Ltac sub_some E := match type of E with Some ?x = Some ?q => let H := fresh in assert (H : q = x) by congruence; rewrite H; clear H E end.
Theorem rat_set_string_iff s q : rat_set_string s = Some q <-> Qred q = q /\ rat_text s q.
Proof.
  split.
  - intros E. destruct (split_slash s) as [[a b]|] eqn:SP.
    + pose proof (split_slash_some _ _ _ SP) as ->. unfold rat_set_string in E. rewrite SP in E.
      destruct (a ++ 47 :: b) eqn:AB; [discriminate|]. rewrite <- AB in *. clear AB. destruct a as [|a0 a']; [discriminate|]. set (a := a0 :: a') in *.
      rewrite scan_sign_after in E. destruct (after_sign_app a) as (sg & neg & r & AS & AE & SG). rewrite AS in E.
      destruct (nat_scan true false r) as [[[[n bn] fn] rn]|] eqn:NA; [|discriminate]. destruct rn; [|discriminate].
      destruct (nat_scan true false b) as [[[[d bd] fd] rd]|] eqn:NB; [|discriminate]. destruct rd; [|discriminate].
      destruct (d =? 0) eqn:DZ; [discriminate|]. apply Z.eqb_neq in DZ. sub_some E. split; [apply Qred_idem|].
      apply nat_scan_int in NA, NB. rewrite AE, <- app_assoc. apply (rt_ratio sg neg r n b d); auto; [apply sign_pairs, SG|].
      rewrite Qred_correct. destruct (Z.lt_total d 0) as [X|[X|X]]; [|congruence|].
      * exfalso. assert (0 <= d); [|lia]. destruct NB as [|t ds R H|p b0 u t ds P U R]; [lia|eapply nonneg_in_base; [|exact R]; lia|].
        eapply nonneg_in_base; [|exact R]. destruct P as [P|(_ & ->)]; [eapply prefix_base, P|lia].
      * rewrite (Qmake_Qdiv _ (Z.to_pos d)), Z2Pos.id by exact X. reflexivity.
    + pose proof (split_slash_none_inv _ SP) as NS. assert (NE : s <> []) by (intros ->; discriminate).
      rewrite rat_set_string_no_slash in E by assumption. unfold rat_set_string_main in E.
      rewrite scan_sign_after in E. destruct (after_sign_app s) as (sg & neg & r & AS & -> & SG). rewrite AS in E.
      destruct (nat_scan true true r) as [[[[m base] f] s2]|] eqn:NA; [|discriminate].
      apply nat_scan_sound in NA as (t & -> & M & St). destruct (mant_base _ _ _ _ M) as (HB & Hf).
      destruct (scan_exponent true s2) as [[[x b] [|? ?]]|] eqn:SE; try discriminate.
      apply (exp_sound base) in SE as (EL & I); [|exact St|lia]. destruct (exp_base _ _ _ _ EL) as (Hb & _).
      apply sign_pairs in SG.
      destruct (m =? 0) eqn:MZ.
      * apply Z.eqb_eq in MZ. subst m. injection E as <-. split; [reflexivity|].
        apply (rt_number sg neg t base 0 f s2 b x); auto. destruct neg; cbn [signed]; unfold inject_Z at 1; cbn [Z.opp]; ring.
      * rewrite exp2_eq in E by exact HB.
        pose proof (value_pow base f b x (signed neg m) HB Hb) as V. cbv zeta in V.
        set (exp5 := (if base =? 10 then - f else 0) + (if b =? 10 then x else 0)) in *.
        set (exp2 := - f * (if base =? 16 then 4 else if base =? 8 then 3 else 1) + x) in *.
        destruct (1000000 <? Z.abs exp5) eqn:C5; [discriminate|]. destruct (10000000 <? Z.abs exp2) eqn:C2; [discriminate|].
        destruct (pow_nd 5 exp5) as [n5 d5]. destruct (pow_nd 2 exp2) as [n2 d2]. cbn [fst snd] in V. sub_some E.
        split; [apply Qred_idem|]. apply (rt_number sg neg t base m f s2 b x); auto.
        { right. unfold exponents_ok. fold exp5 exp2. lia. }
        rewrite Qred_correct. exact V.
  - intros (QR & T). destruct T as [sg neg a n b d q SG A B DZ V|sg neg t base m f t' b x q SG M EL I RG V].
    + destruct (int_head a n A) as (NE & HD). pose proof (int_no_slash _ _ A) as NS. pose proof (sign_no_slash _ _ SG) as NG.
      assert (SP : split_slash (sg ++ a ++ 47 :: b) = Some (sg ++ a, b)) by (rewrite app_assoc; apply split_slash_app, not_in_app; assumption).
      unfold rat_set_string. rewrite SP. destruct (sg ++ a ++ 47 :: b) eqn:AB; [destruct sg; [|discriminate]; cbn in AB; destruct a; discriminate|].
      destruct (sg ++ a) as [|y l0] eqn:SA; [destruct sg; [|discriminate]; cbn in SA; congruence|]. rewrite <- SA.
      rewrite scan_sign_after, (sign_after sg neg a) by (apply sign_pairs in SG; assumption).
      destruct (int_nat_scan a n A) as (ba & ->). destruct (int_nat_scan b d B) as (bd & ->). rewrite (proj2 (Z.eqb_neq d 0) DZ). f_equal.
      rewrite <- QR. apply Qred_complete. rewrite V.
      destruct (Z.lt_total d 0) as [X|[X|X]]; [|congruence|].
      * exfalso. assert (0 <= d); [|lia]. destruct B as [|t ds R H|p b0 u t ds P U R]; [lia|eapply nonneg_in_base; [|exact R]; lia|].
        eapply nonneg_in_base; [|exact R]. destruct P as [P|(_ & ->)]; [eapply prefix_base, P|lia].
      * rewrite (Qmake_Qdiv _ (Z.to_pos d)), Z2Pos.id by exact X. reflexivity.
    + destruct (mant_head _ _ _ _ M) as (NE & HD). destruct (mant_base _ _ _ _ M) as (HB & Hf). destruct (exp_base _ _ _ _ EL) as (Hb & EH).
      rewrite rat_set_string_no_slash.
      2:{ destruct sg; [|discriminate]. destruct t; [congruence|discriminate]. }
      2:{ apply not_in_app; [eapply sign_no_slash, SG|apply not_in_app; [eapply mant_no_slash, M|eapply exp_no_slash, EL]]. }
      unfold rat_set_string_main. rewrite scan_sign_after, (sign_after sg neg (t ++ t')).
      2:{ apply sign_pairs, SG. }
      2:{ destruct t; [congruence|]. exact HD. }
      rewrite (nat_scan_complete t base m f t' M).
      2:{ eapply exp_stop_base; [| |exact EL]; lia. }
      2:{ destruct t'; [exact Logic.I|apply EH]. }
      rewrite (exp_complete base t' x b EL I). destruct (m =? 0) eqn:MZ.
      * apply Z.eqb_eq in MZ. subst m. f_equal. rewrite <- QR. change 0%Q with (Qred 0). apply Qred_complete. rewrite V.
        destruct neg; cbn [signed]; unfold inject_Z at 1; cbn [Z.opp]; ring.
      * apply Z.eqb_neq in MZ. destruct RG as [RG|RG]; [congruence|]. rewrite exp2_eq by exact HB.
        pose proof (value_pow base f b x (signed neg m) HB Hb) as W. cbv zeta in W. unfold exponents_ok in RG.
        set (exp5 := (if base =? 10 then - f else 0) + (if b =? 10 then x else 0)) in *.
        set (exp2 := - f * (if base =? 16 then 4 else if base =? 8 then 3 else 1) + x) in *.
        replace (1000000 <? Z.abs exp5) with false by lia. replace (10000000 <? Z.abs exp2) with false by lia.
        destruct (pow_nd 5 exp5) as [n5 d5]. destruct (pow_nd 2 exp2) as [n2 d2]. cbn [fst snd] in W. f_equal. rewrite <- QR. apply Qred_complete.
        rewrite V. exact W.
Qed.
