(** Property theorems C98: FloatToString. *)
From Coq Require Import ZArith List QArith Qpower Qabs Bool Lia Lqa String.
From Verif Require Import Base Float FloatSpec FloatProofs FloatProofs2 ConvFloat ConvFloatSpec ConvFloatProofs2 ConvFloatProofs3 Literal LiteralSpec LiteralProofs LiteralProofs2 LiteralProofs3
  Decimal DecimalSpec DecDigits FloatSpec FloatText FloatTextSpec FloatTextProofs FloatTextProofs2 FloatTextProofs3 FloatTextProofs4 FloatTextProofs5.
Import ListNotations.
Close Scope Q_scope.
Open Scope Z_scope.

(** C98. FloatToString writes a float other than zero as a plain decimal (no exponent, no needless zero or point) that rounds back
    to the float; it has at most 9 digits for a float32 and 17 for a float64; no decimal with fewer digits rounds to the float, and
    of those with as many that do none is nearer ... *)
Theorem C98_shortest z x q : is_float (fmt_of z) x -> denotes x q -> ~ (q == 0)%Q ->
  exists v k, plain_text (float_to_string z x) (signbit x) v /\ rounds_to (fmt_of z) v q /\
    1 <= k <= (match z with S32 => 9 | S64 => 17 end) /\ short 10 k v /\
    (forall k' y, k' < k -> short 10 k' y -> ~ rounds_to (fmt_of z) y q) /\
    (forall y, short 10 k y -> rounds_to (fmt_of z) y q -> (Qabs (q - v) <= Qabs (q - y))%Q).
Proof.
  intros F D N. destruct x as [|?|neg m e]; try (destruct D; fail). destruct (fmt_ok z) as [Hp He].
  assert (M0 : m <> 0) by (intros X; apply N, (denotes_zero neg m e q); [cbn in F; lia|exact D|exact X]).
  destruct (text_spec z neg m e F M0) as (t & mm & ff & k & T1 & T2 & T3 & T4 & T5 & T6 & T7 & T8 & T9 & T10 & T11 & T12 & T13).
  set (v := (inject_Z mm * inject_Z 10 ^ (- ff))%Q) in *. set (q0 := digits 2 m e) in *.
  assert (Eq : (q == if neg then - q0 else q0)%Q) by (cbn in D; rewrite D; unfold q0; destruct neg; [apply digits_opp|reflexivity]).
  assert (Rq : representable (fmt_of z) q) by (apply (denotes_representable (fmt_of z) _ _ F D)).
  exists (if neg then - v else v)%Q, k.
  assert (RT : forall y, rounds_to (fmt_of z) y q <-> (0 < (if neg then - y else y))%Q /\ (rv (fmt_of z) (if neg then - y else y) == q0)%Q).
  { intros y. destruct neg.
    - rewrite rounds_opp. rewrite rounds_pos; [|assumption|assumption|lra|apply representable_opp; assumption].
      assert (X : (- q == q0)%Q) by lra. rewrite X. tauto.
    - rewrite rounds_pos; [|assumption|assumption|lra|assumption]. rewrite Eq. tauto. }
  split. { exists t, mm, ff. split; [exact T1|]. split; [exact T2|]. unfold v. clear RT; destruct neg; cbn [signbit]; [rewrite inject_Z_opp; ring|reflexivity]. }
  split. { apply RT. destruct neg; [rewrite (rv_wd (fmt_of z) (- - v)%Q v) by lra|]; split; try lra; exact T9. }
  split; [destruct z; exact T10|]. split; [destruct neg; [apply short_opp|]; exact T11|]. split.
  - intros k' y L Sy X. apply RT in X. destruct X as [X1 X2]. apply (T12 k' _ L X1); [destruct neg; [apply short_opp|]; exact Sy|exact X2].
  - intros y Sy X. apply RT in X. destruct X as [X1 X2]. pose proof (T13 (if neg then - y else y)%Q X1 ltac:(destruct neg; [apply short_opp|]; exact Sy) X2) as G.
    rewrite Eq. destruct neg; [|exact G]. setoid_replace (- q0 - - v)%Q with (- (q0 - v))%Q by ring. setoid_replace (- q0 - y)%Q with (- (q0 - - y))%Q by ring. rewrite !Qabs_opp. exact G.
Qed.
Print Assumptions C98_shortest.
(** (rounding takes a number to the nearest one of the format) *)
Theorem C98_rounds_to_nearest z v q r : rounds_to (fmt_of z) v q -> ~ (q == 0)%Q -> representable (fmt_of z) q -> representable (fmt_of z) r ->
  (Qabs (v - q) <= Qabs (v - r))%Q.
Proof. intros H N R Rr. destruct (fmt_ok z) as [Hp He]. exact (rounds_nearest (fmt_of z) Hp He v q r N R H Rr). Qed.
Print Assumptions C98_rounds_to_nearest.
(** ... zeros, infinities and NaN have fixed texts ... *)
Theorem C98_special z x :
  (is_float (fmt_of z) x -> denotes x 0 -> float_to_string z x = str (if signbit x then "-0" else "0")) /\
  float_to_string z NaN = str "NaN" /\ float_to_string z (Inf false) = str "+Inf" /\ float_to_string z (Inf true) = str "-Inf".
Proof.
  split; [|repeat split; reflexivity]. intros F D. destruct x as [|?|neg m e]; try (destruct D; fail).
  assert (M0 : m = 0) by (apply (denotes_zero neg m e 0); [cbn in F; lia|exact D|reflexivity]). rewrite M0. destruct neg; reflexivity.
Qed.
Print Assumptions C98_special.
(** ... two floats have the same text exactly when they are the same float ... *)
Theorem C98_same_text z x y : is_float (fmt_of z) x -> is_float (fmt_of z) y ->
  (float_to_string z x = float_to_string z y <-> same_float x y).
Proof.
  intros F F'. split.
  - intros E.
    assert (Hd1 : forall u, is_float (fmt_of z) u -> match u with
              | NaN => float_to_string z u = [78; 97; 78]
              | Inf neg => float_to_string z u = (if neg then 45 else 43) :: [73; 110; 102]
              | Fin neg m e => exists t mm ff, float_to_string z u = (if neg then 45 :: t else t) /\ plain t mm ff /\
                  (if m =? 0 then mm = 0 else (rv (fmt_of z) (inject_Z mm * inject_Z 10 ^ (- ff)) == digits 2 m e)%Q /\ (0 < inject_Z mm * inject_Z 10 ^ (- ff))%Q)
              end).
    { intros u Fu. destruct u as [|neg|neg m e]; try reflexivity. destruct (m =? 0) eqn:C.
      - exists [48], 0, 0. apply Z.eqb_eq in C. subst m. split; [destruct neg; reflexivity|]. split; [|reflexivity]. apply (plain_whole [48]). split; [split; [discriminate|repeat constructor; lia]|left; reflexivity].
      - apply Z.eqb_neq in C. destruct (text_spec z neg m e Fu C) as (t & mm & ff & k & T1 & T2 & _ & _ & _ & _ & _ & T8 & T9 & _). exists t, mm, ff. split; [exact T1|]. split; [exact T2|]. split; assumption. }
    pose proof (Hd1 x F) as X. pose proof (Hd1 y F') as Y. clear Hd1.
    assert (Ph : forall t mm ff, plain t mm ff -> exists c r, t = c :: r /\ 48 <= c <= 57) by (intros t mm ff P; apply plain_nonneg in P; tauto).
    destruct x as [|a|a m e], y as [|b|b m' e'].
    + exact Logic.I.
    + exfalso. rewrite X, Y in E. destruct b; discriminate.
    + exfalso. destruct Y as (t & mm & ff & Y1 & Y2 & _). rewrite X, Y1 in E. destruct (Ph _ _ _ Y2) as (c & r & -> & Hc). destruct b; injection E; lia.
    + exfalso. rewrite X, Y in E. destruct a; discriminate.
    + cbn. rewrite X, Y in E. destruct a, b; try reflexivity; discriminate.
    + exfalso. destruct Y as (t & mm & ff & Y1 & Y2 & _). rewrite X, Y1 in E. destruct (Ph _ _ _ Y2) as (c & r & -> & Hc). destruct a, b; injection E; intros; subst; try lia; discriminate.
    + exfalso. destruct X as (t & mm & ff & Y1 & Y2 & _). rewrite Y, Y1 in E. destruct (Ph _ _ _ Y2) as (c & r & -> & Hc). destruct a; injection E; lia.
    + exfalso. destruct X as (t & mm & ff & Y1 & Y2 & _). rewrite Y, Y1 in E. destruct (Ph _ _ _ Y2) as (c & r & -> & Hc). destruct a, b; injection E; intros; subst; try lia; discriminate.
    + destruct X as (t & mm & ff & X1 & X2 & X3), Y as (t' & mm' & ff' & Y1 & Y2 & Y3). rewrite X1, Y1 in E.
      destruct (Ph _ _ _ X2) as (c & r & Et & Hc), (Ph _ _ _ Y2) as (c' & r' & Et' & Hc').
      assert (Es : a = b /\ t = t').
      { destruct a, b; (split; [try reflexivity|]); try congruence; exfalso; rewrite Et, Et' in E; injection E; intros; lia. }
      destruct Es as [<- <-]. destruct (plain_fun _ _ _ _ _ X2 Y2) as [<- <-]. cbn. split; [reflexivity|].
      assert (Eq : (digits 2 m e == digits 2 m' e')%Q).
      { destruct (m =? 0) eqn:C, (m' =? 0) eqn:C'.
        - apply Z.eqb_eq in C, C'. subst. unfold digits. change (inject_Z 0) with 0%Q. ring.
        - exfalso. destruct Y3 as [_ Y3]. rewrite X3 in Y3. change (inject_Z 0) with 0%Q in Y3. rewrite Qmult_0_l in Y3. lra.
        - exfalso. destruct X3 as [_ X3]. rewrite Y3 in X3. change (inject_Z 0) with 0%Q in X3. rewrite Qmult_0_l in X3. lra.
        - rewrite <- (proj1 X3). apply Y3. }
      exists (digits 2 (if a then - m else m) e). split; [reflexivity|]. destruct a; [rewrite !digits_opp|]; rewrite Eq; reflexivity.
  - intros S1. destruct x as [|a|a m e], y as [|b|b m' e']; cbn in S1; try tauto; [congruence|].
    destruct S1 as [<- (q & D & D')]. exact (same_number_same_text z a m e m' e' q F F' D D').
Qed.
Print Assumptions C98_same_text.
(** ... an integer below 2^24 (float32) or 2^53 (float64) is written as IntToString writes it ... *)
Theorem C98_integers z x i : is_float (fmt_of z) x -> denotes x (inject_Z i) -> Z.abs i < 2 ^ (match z with S32 => 24 | S64 => 53 end) ->
  (i = 0 -> signbit x = false) -> float_to_string z x = integer_to_string i.
Proof.
  intros F D B Z0. destruct x as [|?|neg m e]; try (destruct D; fail). destruct (fmt_ok z) as [Hp He].
  destruct (Z.eq_dec i 0) as [I0|I0].
  { subst i. specialize (Z0 eq_refl). cbn in Z0. subst neg. assert (M0 : m = 0) by (apply (denotes_zero false m e 0); [cbn in F; lia|exact D|reflexivity]). rewrite M0. reflexivity. }
  assert (M0 : m <> 0).
  { intros X. apply (denotes_zero neg m e (inject_Z i)) in X; [|cbn in F; lia|exact D]. apply inject_Z_0 in X. lia. }
  destruct (text_spec z neg m e F M0) as (t & mm & ff & k & T1 & T2 & T3 & T4 & T5 & T6 & T7 & T8 & T9 & T10 & T11 & T12 & T13).
  set (v := (inject_Z mm * inject_Z 10 ^ (- ff))%Q) in *. set (q := digits 2 m e) in *. set (a := Z.abs i) in *.
  assert (Eq : (q == inject_Z a)%Q /\ neg = (i <? 0)).
  { cbn in D. assert (D2 : (inject_Z i == if neg then - q else q)%Q) by (rewrite D; unfold q; destruct neg; [apply digits_opp|reflexivity]). clear D.
    destruct (i <? 0) eqn:C; [apply Z.ltb_lt in C|apply Z.ltb_ge in C]; unfold a.
    - assert (L : (inject_Z i < 0)%Q) by (change 0%Q with (inject_Z 0); rewrite <- Zlt_Qlt; exact C). destruct neg; [|exfalso; lra]. split; [|reflexivity].
      rewrite Z.abs_neq by lia. rewrite inject_Z_opp. lra.
    - assert (L : (0 <= inject_Z i)%Q) by (change 0%Q with (inject_Z 0); rewrite <- Zle_Qle; exact C). destruct neg; [exfalso; lra|]. split; [|reflexivity].
      rewrite Z.abs_eq by lia. symmetry. exact D2. }
  destruct Eq as [Eq En].
  assert (GI : forall j, 0 <= j <= 2 ^ fp (fmt_of z) -> grid (fmt_of z) (inject_Z j)).
  { intros j [J1 J2]. destruct (Z.eq_dec j (2 ^ fp (fmt_of z))) as [->|Nj].
    - exists (2 ^ (fp (fmt_of z) - 1)), 1. split; [rewrite Z.abs_eq by (apply Z.pow_nonneg; lia); apply Z.pow_lt_mono_r; lia|]. split; [destruct z; cbn; lia|].
      unfold digits. change (inject_Z 2 ^ 1)%Q with (inject_Z 2). rewrite <- inject_Z_mult. replace (2 ^ (fp (fmt_of z) - 1) * 2) with (2 ^ fp (fmt_of z)); [reflexivity|].
      rewrite Z.mul_comm, <- Z.pow_succ_r by lia. f_equal. lia.
    - exists j, 0. split; [lia|]. split; [destruct z; cbn; lia|]. unfold digits. change (inject_Z 2 ^ 0)%Q with 1%Q. ring. }
  assert (Bf : a < 2 ^ fp (fmt_of z)) by (destruct z; exact B).
  assert (Pa : 0 < a) by lia.
  assert (V : (v == q)%Q).
  { (* the number itself is a decimal with as many digits as it takes *)
    destruct (Z_lt_le_dec a (10 ^ k)) as [Lk|Lk].
    - assert (Sq : short 10 k q) by (exists a, 0; split; [rewrite Z.abs_eq by lia; exact Lk|rewrite Eq; unfold digits; change (inject_Z 10 ^ 0)%Q with 1%Q; ring]).
      pose proof (T13 q T6 Sq (rv_exact (fmt_of z) Hp q T6 (rep_grid (fmt_of z) Hp q T7))) as G.
      assert (Z1 : (q - q == 0)%Q) by ring. rewrite Z1 in G. change (Qabs 0) with 0%Q in G. apply Qabs_Qle_condition in G. lra.
    - (* with fewer digits than the integer has, the text would stand for an integer, which is a float of its own *)
      assert (Iv : exists j, (v == inject_Z j)%Q \/ ((v < inject_Z (10 ^ k))%Q /\ j = 0)).
      { destruct T11 as (c & g & Hc & Ev). destruct (Z_le_gt_dec 0 g) as [G|G].
        - exists (c * 10 ^ g). left. rewrite Ev. unfold digits. rewrite inject_Z_mult, Zpower_Qpower by lia. reflexivity.
        - exists 0. right. split; [|reflexivity]. rewrite Ev. unfold digits.
          assert (X : (inject_Z 10 ^ g <= 1)%Q) by (change 1%Q with (inject_Z 10 ^ 0)%Q; apply (P_mono 10 ten_le); lia).
          pose proof (P10_pos g) as X0.
          assert (X1 : (inject_Z c < inject_Z (10 ^ k))%Q) by (rewrite <- Zlt_Qlt; lia).
          assert (X2 : (0 < inject_Z c)%Q). { apply (Qlt_mult_inv (inject_Z 10 ^ g)%Q); [exact X0|]. rewrite Ev in T8. unfold digits in T8. lra. }
          assert (X3 : (inject_Z c * inject_Z 10 ^ g <= inject_Z c * 1)%Q) by (apply Qmult_le_l; assumption). lra. }
      destruct Iv as (j & [Ej|[Lj _]]).
      + assert (Pj : 0 < j) by (rewrite Ej in T8; change 0%Q with (inject_Z 0) in T8; rewrite <- Zlt_Qlt in T8; exact T8).
        destruct (Z_le_gt_dec j (2 ^ fp (fmt_of z))) as [Lj|Lj].
        * rewrite <- T9. symmetry. apply rv_exact; [exact Hp|exact T8|]. destruct (GI j ltac:(lia)) as (m1 & e1 & G1 & G2 & G3). exists m1, e1. rewrite Ej. auto.
        * exfalso. set (w := inject_Z (2 ^ fp (fmt_of z))).
          assert (Pw : (0 < w)%Q) by (unfold w; change 0%Q with (inject_Z 0); rewrite <- Zlt_Qlt; apply Z.pow_pos_nonneg; lia).
          assert (C1 : (rv (fmt_of z) w == rv (fmt_of z) v)%Q).
          { apply rv_convex; [exact Hp|exact T8|exact Pw|]. right. rewrite T9, Eq, Ej. unfold w. rewrite <- !Zle_Qle. lia. }
          rewrite T9, Eq, (rv_exact (fmt_of z) Hp w Pw (GI (2 ^ fp (fmt_of z)) (conj (Z.pow_nonneg 2 (fp (fmt_of z)) ltac:(lia)) (Z.le_refl _)))) in C1. unfold w, Qeq in C1. cbn -[Z.pow] in C1. lia.
      + (* below a power of ten that is not above the number: that power would be nearer *)
        assert (Pw : (0 < inject_Z (10 ^ k))%Q) by (change 0%Q with (inject_Z 0); rewrite <- Zlt_Qlt; apply Z.pow_pos_nonneg; lia).
        assert (C1 : (rv (fmt_of z) (inject_Z (10 ^ k)) == rv (fmt_of z) v)%Q).
        { apply rv_convex; [exact Hp|exact T8|exact Pw|]. left. rewrite T9, Eq. split; [lra|]. rewrite <- Zle_Qle. exact Lk. }
        assert (C2 : grid (fmt_of z) (inject_Z (10 ^ k))) by (apply GI; split; [apply Z.pow_nonneg; lia|lia]).
        rewrite T9 in C1. rewrite (rv_exact (fmt_of z) Hp _ Pw C2) in C1.
        assert (Sq : short 10 k q). { exists 1, k. split; [apply (Z.pow_gt_1 10 k); lia|]. rewrite <- C1. unfold digits. rewrite Zpower_Qpower by lia. change (inject_Z 1) with 1%Q. ring. }
        pose proof (T13 q T6 Sq (rv_exact (fmt_of z) Hp q T6 (rep_grid (fmt_of z) Hp q T7))) as G.
        assert (Z1 : (q - q == 0)%Q) by ring. rewrite Z1 in G. change (Qabs 0) with 0%Q in G. apply Qabs_Qle_condition in G. lra. }
  destruct (whole_dec a ltac:(lia)) as [W1 W2]. pose proof (plain_whole _ W1) as P2. rewrite W2 in P2.
  assert (Et : t = map chr (dec a)).
  { apply (plain_inj _ _ _ _ _ _ T2 P2). fold v. rewrite V, Eq. change (- 0) with 0. change (inject_Z 10 ^ 0)%Q with 1%Q. ring. }
  rewrite T1, Et, En. unfold integer_to_string, int_to_string. destruct (i <? 0) eqn:C; [apply Z.ltb_lt in C|apply Z.ltb_ge in C]; unfold a; [rewrite Z.abs_neq|rewrite Z.abs_eq]; (reflexivity || lia).
Qed.
Print Assumptions C98_integers.
(** ... StringToFloat64 reads back a text of at most 15 characters ... *)
Theorem C98_round_trip_short x o : is_float f64 x -> (List.length (float_to_string S64 x) <= 15)%nat ->
  exists y, string_to_float float_parse S64 (float_to_string S64 x) o = (None, y) /\ is_float f64 y /\ same_float x y.
Proof.
  intros F L. destruct x as [|neg|neg m e].
  - exists NaN. split; [reflexivity|]. split; exact Logic.I.
  - exists (Inf neg). destruct neg; (split; [reflexivity|]; split; [exact Logic.I|reflexivity]).
  - destruct (Z.eq_dec m 0) as [->|M0].
    + destruct neg.
      * eexists. split; [vm_compute; reflexivity|]. split; [cbn; lia|]. split; [reflexivity|]. exists 0%Q. split; cbn; unfold digits; change (inject_Z 0) with 0%Q; ring.
      * eexists. split; [vm_compute; reflexivity|]. split; [cbn; lia|]. split; [reflexivity|]. exists 0%Q. split; cbn; unfold digits; change (inject_Z 0) with 0%Q; ring.
    + destruct (text_spec S64 neg m e F M0) as (t & mm & ff & k & T1 & T2 & T3 & T4 & T5 & T6 & T7 & T8 & T9 & _). rewrite T1 in *.
      destruct (read_short neg t mm ff _ o T2 T3 L T4 T5 T7 T9) as (y & Y1 & Y2 & Y3). exists y. split; [exact Y1|]. split; [exact Y3|].
      apply (signbit_of_number _ _ (if neg then - digits 2 m e else digits 2 m e)%Q).
      * cbn in F |- *. lia.
      * destruct y; cbn in *; try exact Logic.I. lia.
      * cbn. destruct neg; [rewrite digits_opp|]; reflexivity.
      * exact Y2.
      * intros X. destruct neg; lra.
Qed.
Print Assumptions C98_round_trip_short.
(** ... and both StringToFloat32 and StringToFloat64 read back a text that stands for exactly the float's number, so every integer
    below 2^24 or 2^53 ... *)
Theorem C98_round_trip_exact z x q o : is_float (fmt_of z) x -> denotes x q -> ~ (q == 0)%Q -> plain_text (float_to_string z x) (signbit x) q ->
  exists y, string_to_float float_parse z (float_to_string z x) o = (None, y) /\ is_float (fmt_of z) y /\ same_float x y.
Proof.
  intros F D N P. destruct x as [|?|neg m e]; try (destruct D; fail).
  assert (M0 : m <> 0) by (intros X; apply N, (denotes_zero neg m e q); [cbn in F; lia|exact D|exact X]).
  destruct (text_spec z neg m e F M0) as (t & mm & ff & k & T1 & T2 & T3 & T4 & T5 & T6 & T7 & _). rewrite T1 in *. cbn [signbit] in P.
  destruct P as (t' & m' & f' & P1 & P2 & P3).
  assert (Et : t' = t) by (destruct neg; congruence). subst t'. destruct (plain_fun _ _ _ _ _ T2 P2) as [<- <-].
  assert (Eq : (q == if neg then - digits 2 m e else digits 2 m e)%Q) by (cbn in D; rewrite D; destruct neg; [apply digits_opp|reflexivity]).
  assert (Ev : (digits 2 m e == inject_Z mm * inject_Z 10 ^ (- ff))%Q). { rewrite Eq in P3. destruct neg; [rewrite inject_Z_opp in P3; lra|exact P3]. }
  destruct (read_exact z neg t mm ff _ o T2 T4 T5 T7 Ev) as (y & Y1 & Y2 & Y3). exists y. split; [exact Y1|]. split; [exact Y3|].
  apply (signbit_of_number _ _ q); [cbn in F |- *; lia|destruct y; cbn in *; try exact Logic.I; lia|exact D| |exact N].
  apply (denotes_eq _ _ _ (Qeq_sym _ _ Eq)). exact Y2.
Qed.
Print Assumptions C98_round_trip_exact.
Theorem C98_round_trip_integers z x i o : is_float (fmt_of z) x -> denotes x (inject_Z i) -> Z.abs i < 2 ^ (match z with S32 => 24 | S64 => 53 end) -> i <> 0 ->
  exists y, string_to_float float_parse z (float_to_string z x) o = (None, y) /\ is_float (fmt_of z) y /\ same_float x y.
Proof.
  intros F D B N. apply (C98_round_trip_exact z x (inject_Z i)); try assumption; [intros X; apply inject_Z_0 in X; contradiction|].
  pose proof (C98_integers z x i F D B ltac:(contradiction)) as T.
  assert (Sg : signbit x = (i <? 0)).
  { destruct x as [|?|neg m e]; try (destruct D; fail). cbn in *. assert (0 <= m) by lia.
    assert (Pm : (0 <= digits 2 m e)%Q). { unfold digits. apply Qmult_le_0_compat; [change 0%Q with (inject_Z 0); rewrite <- Zle_Qle; lia|]. apply Qlt_le_weak, (P_pos 2 two_le). }
    destruct (i <? 0) eqn:C; [apply Z.ltb_lt in C|apply Z.ltb_ge in C]; rewrite Zlt_Qlt in C || rewrite Zle_Qle in C; change (inject_Z 0) with 0%Q in C; destruct neg; try reflexivity; exfalso.
    - lra.
    - rewrite digits_opp in D. assert (X : (inject_Z i == 0)%Q) by lra. apply inject_Z_0 in X. contradiction. }
  rewrite T, Sg. destruct (whole_dec (Z.abs i) ltac:(lia)) as [W1 W2]. pose proof (plain_whole _ W1) as P2. rewrite W2 in P2.
  exists (map chr (dec (Z.abs i))), (Z.abs i), 0. unfold integer_to_string, int_to_string. destruct (i <? 0) eqn:C; [apply Z.ltb_lt in C; rewrite Z.abs_neq in * by lia|apply Z.ltb_ge in C; rewrite Z.abs_eq in * by lia];
    (split; [reflexivity|]; split; [exact P2|]); change (- 0) with 0; change (inject_Z 10 ^ 0)%Q with 1%Q; rewrite ?Z.opp_involutive; ring.
Qed.
Print Assumptions C98_round_trip_integers.
(** ... but (finding) not the texts of ordinary longer numbers: the float64 nearest to pi is written as a text that StringToFloat64
    refuses, and the float32 nearest to 0.1 as one that StringToFloat32 refuses. *)
Theorem C98_round_trip_refuted o :
  let pi := to_fmt f64 false 3141592653589793 1000000000000000 in let tenth := to_fmt f32 false 1 10 in
  float_to_string S64 pi = str "3.141592653589793" /\ fst (string_to_float float_parse S64 (float_to_string S64 pi) o) <> None /\
  float_to_string S32 tenth = str "0.1" /\ fst (string_to_float float_parse S32 (float_to_string S32 tenth) o) <> None.
Proof.
  cbn zeta.
  assert (A : float_to_string S64 (to_fmt f64 false 3141592653589793 1000000000000000) = str "3.141592653589793") by (vm_compute; reflexivity).
  assert (B : float_to_string S32 (to_fmt f32 false 1 10) = str "0.1") by (vm_compute; reflexivity).
  split; [exact A|]. split; [rewrite A; vm_compute; discriminate|]. split; [exact B|]. rewrite B. vm_compute. discriminate.
Qed.
Print Assumptions C98_round_trip_refuted.
Example C98_nonvacuous :
  is_float f64 (Fin true 4503599627370497 (-51)) /\ float_to_string S64 (Fin true 4503599627370497 (-51)) = str "-2.0000000000000004" /\
  float_to_string S64 (to_fmt f64 false 123456 1000) = str "123.456" /\ float_to_string S64 (to_fmt f64 false (10 ^ 23) 1) = str "100000000000000000000000" /\
  float_to_string S32 (to_fmt f32 true 1 3) = str "-0.33333334" /\ float_to_string S64 (Fin false 1 (-10)) = str "0.0009765625" /\
  float_to_string S32 (Fin false 16777215 0) = str "16777215" /\ float_to_string S64 (Fin true 0 3) = str "-0".
Proof. split; [cbn; lia|]. repeat split; vm_compute; reflexivity. Qed.
