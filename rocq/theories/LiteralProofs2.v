(** Proofs about the texts of numbers: values and acceptance. *)
From Coq Require Import ZArith List QArith Qpower Bool Lia Lqa.
From Verif Require Import Base Float ConvFloat ConvFloatSpec Literal LiteralSpec LiteralProofs.
Close Scope Q_scope.
Open Scope Z_scope.

Lemma pow_nd_spec b x : 0 < b -> 0 < fst (pow_nd b x) /\ 0 < snd (pow_nd b x) /\
  (inject_Z (fst (pow_nd b x)) == inject_Z b ^ x * inject_Z (snd (pow_nd b x)))%Q.
Proof.
  intros Hb. unfold pow_nd. destruct (0 <=? x) eqn:C; cbn [fst snd].
  - apply Z.leb_le in C. pose proof (Z.pow_pos_nonneg b x Hb C). split; [lia|]. split; [lia|].
    rewrite Zpower_Qpower by exact C. unfold inject_Z at 3. ring.
  - apply Z.leb_gt in C. assert (0 <= - x) by lia. pose proof (Z.pow_pos_nonneg b (- x) Hb H). split; [lia|]. split; [lia|].
    rewrite Zpower_Qpower by exact H. rewrite Qpower_opp. unfold inject_Z at 1. field.
    intros E. pose proof (Qpower_0_lt (inject_Z b) x) as P. assert (0 < inject_Z b)%Q by (unfold Qlt; cbn; lia). specialize (P H1). rewrite E in P. apply (Qlt_irrefl 0), P.
Qed.
Lemma make_div (n d : Z) (v : Q) : 0 < d -> (inject_Z n == v * inject_Z d)%Q -> (Qmake n (Z.to_pos d) == v)%Q.
Proof.
  intros Hd E. rewrite (Qmake_Qdiv n (Z.to_pos d)). rewrite Z2Pos.id by exact Hd. rewrite E. field. intros X. unfold Qeq in X. cbn in X. lia.
Qed.
Lemma ten_nz : ~ (inject_Z 10 == 0)%Q. Proof. intros X. unfold Qeq in X. cbn in X. lia. Qed.

Lemma exponent_stops sep t b x : exponent t b x -> stops sep true t.
Proof. intros [|c l y C D|c l y C D]; [exact Logic.I| |]; repeat split; intros ?; lia. Qed.
Lemma exponent_base t b x : exponent t b x -> b = 10 \/ b = 2.
Proof. intros [| |]; auto. Qed.
Lemma mantissa_head s m f : mantissa s m f -> exists c r, s = c :: r /\ (48 <= c <= 57 \/ c = 46).
Proof.
  intros [l (N & D)|l r Dl Dr N].
  - destruct l as [|c l]; [congruence|]. inversion D; subst. eauto.
  - destruct l as [|c l]; [cbn; eauto|]. inversion Dl; subst. cbn. eauto.
Qed.
Lemma mantissa_nonneg s m f : mantissa s m f -> 0 <= m /\ 0 <= f.
Proof.
  intros [l (N & D)|l r Dl Dr N].
  - split; [apply (b10_nonneg l 0); [lia|exact D]|lia].
  - split; [|lia]. apply (b10_nonneg (l ++ r) 0); [lia|]. apply Forall_app. split; assumption.
Qed.
(** a numeral in scanning form *)
Lemma numeral_inv s neg m f b x : numeral s neg m f b x -> exists a t, scan_sign s = (neg, a ++ t) /\ mantissa a m f /\ exponent t b x /\ s <> [] /\ ~ inf_name s true /\ ~ inf_name s false.
Proof.
  assert (K : forall a t m f b x, mantissa a m f -> exponent t b x -> (exists c r, a ++ t = c :: r /\ (48 <= c <= 57 \/ c = 46))).
  { intros a t m0 f0 b0 x0 M X. destruct (mantissa_head _ _ _ M) as (c & r & -> & H). cbn. eauto. }
  intros [a t m0 f0 b0 x0 M X|a t m0 f0 b0 x0 M X|a t m0 f0 b0 x0 M X]; exists a, t; destruct (K _ _ _ _ _ _ M X) as (c & r & E & H).
  - split; [rewrite E; rewrite scan_sign_after; apply after_sign_other; lia|]. repeat split; try assumption; rewrite E; try discriminate; cbn; intros D; decompose [or] D; congruence || (injection H0 as -> _; lia) || (injection H1 as -> _; lia) || (injection H2 as -> _; lia).
  - split; [reflexivity|]. repeat split; try assumption; rewrite E; try discriminate; cbn; intros D; decompose [or] D; congruence || (injection H0 as -> _; lia) || (injection H1 as -> _; lia) || (injection H2 as -> _; lia).
  - split; [reflexivity|]. repeat split; try assumption; rewrite E; try discriminate; cbn; intros D; decompose [or] D; congruence || (injection H0 as -> _; lia) || (injection H1 as -> _; lia) || (injection H2 as -> _; lia).
Qed.
Lemma numeral_of s (neg : bool) a t m f b x : scan_sign s = (neg, a ++ t) -> mantissa a m f -> exponent t b x -> numeral s neg m f b x.
Proof.
  intros E M X. rewrite scan_sign_after in E. destruct s as [|c s].
  - cbn in E. injection E as <- E. symmetry in E. apply app_eq_nil in E as [-> ->]. destruct (mantissa_head _ _ _ M) as (? & ? & ? & _). discriminate.
  - destruct (Z.eq_dec c 45) as [->|A]; [cbn in E; injection E as <- ->; constructor; assumption|].
    destruct (Z.eq_dec c 43) as [->|B]; [cbn in E; injection E as <- ->; constructor; assumption|].
    rewrite after_sign_other in E by assumption. injection E as <- ->. constructor; assumption.
Qed.

(** ** big.Float.Parse *)
Definition float_parse_main (s : list Z) : option literal :=
      let '(neg, s1) := scan_sign s in
      match nat_scan false true s1 with
      | None => None
      | Some (m, _, f, s2) =>
          match scan_exponent false s2 with
          | None => None
          | Some (x, b, s3) =>
              if negb (m =? 0) && negb ((- 2 ^ 31 <=? Z.log2 m + 1 - f + x) && (Z.log2 m + 1 - f + x <=? 2 ^ 31 - 1)) then None else
              match s3 with
              | [] => if m =? 0 then Some (LNum neg 0 1) else
                      let '(pn, pd) := pow_nd b x in Some (LNum neg (m * pn) (10 ^ f * pd))
              | _ => None
              end
          end
      end.
Lemma is_text_iff s t : is_text s t = true <-> s = t.
Proof. unfold is_text. destruct (list_eq_dec Z.eq_dec s t); split; congruence. Qed.
Lemma is_text_false s t : is_text s t = false <-> s <> t.
Proof. unfold is_text. destruct (list_eq_dec Z.eq_dec s t); split; congruence. Qed.
Lemma float_parse_cases s : (exists neg, inf_name s neg /\ float_parse s = Some (LInf neg)) \/
  (~ inf_name s true /\ ~ inf_name s false /\ float_parse s = float_parse_main s).
Proof.
  unfold float_parse.
  destruct (is_text s [73; 110; 102] || is_text s [105; 110; 102] || is_text s [43; 73; 110; 102] || is_text s [43; 105; 110; 102]) eqn:A.
  - rewrite !orb_true_iff, !is_text_iff in A. left. exists false. split; [cbn; tauto|reflexivity].
  - destruct (is_text s [45; 73; 110; 102] || is_text s [45; 105; 110; 102]) eqn:B.
    + rewrite !orb_true_iff, !is_text_iff in B. left. exists true. split; [exact B|reflexivity].
    + rewrite !orb_false_iff, !is_text_false in A. rewrite !orb_false_iff, !is_text_false in B. right. split; [cbn; tauto|]. split; [cbn; tauto|reflexivity].
Qed.
Lemma float_parse_numeral s neg m f b x : numeral s neg m f b x -> int64 x -> float_range m f x ->
  exists l, float_parse s = Some l /\ literal_value l neg (numeral_value neg m f b x).
Proof.
  intros H R F. destruct (numeral_inv _ _ _ _ _ _ H) as (a & t & E & M & X & N & I1 & I2).
  destruct (float_parse_cases s) as [(n & I & _)|(_ & _ & ->)]; [destruct n; tauto|].
  unfold float_parse_main. rewrite E, nat_scan10_false, (scan_mantissa false a m f t M (exponent_stops _ _ _ _ X)), (scan_exp_ok false t b x X R).
  destruct (mantissa_nonneg _ _ _ M) as [Hm Hf].
  destruct (m =? 0) eqn:Z0.
  - apply Z.eqb_eq in Z0. subst m. cbn [negb andb]. eexists. split; [reflexivity|]. cbn [literal_value]. repeat split; try lia.
    unfold numeral_value. destruct neg; cbn [Z.opp]; change (inject_Z 0) with 0%Q; rewrite !Qmult_0_l; reflexivity.
  - apply Z.eqb_neq in Z0. destruct F as [F|[F1 F2]]; [congruence|]. rewrite (proj2 (Z.leb_le _ _) F1), (proj2 (Z.leb_le _ _) F2). cbn [negb andb].
    destruct (pow_nd_spec b x) as (P1 & P2 & P3); [destruct (exponent_base _ _ _ X); lia|]. destruct (pow_nd b x) as [pn pd]. cbn [fst snd] in *.
    eexists. split; [reflexivity|]. cbn [literal_value]. pose proof (Z.pow_pos_nonneg 10 f ltac:(lia) Hf) as T.
    split; [reflexivity|]. split; [nia|]. split; [nia|]. apply make_div; [nia|]. unfold numeral_value.
    replace (if neg then - (m * pn) else m * pn) with ((if neg then - m else m) * pn) by (destruct neg; ring).
    rewrite !inject_Z_mult, P3, Zpower_Qpower by exact Hf. rewrite Qpower_opp. field. apply Qpower_not_0, ten_nz.
Qed.
Lemma float_parse_only s l : float_parse s = Some l -> (exists neg, inf_name s neg /\ l = LInf neg) \/
  exists neg m f b x, numeral s neg m f b x /\ int64 x /\ float_range m f x.
Proof.
  destruct (float_parse_cases s) as [(n & I & ->)|(I1 & I2 & ->)]; [intros [= <-]; left; eauto|]. unfold float_parse_main.
  destruct (scan_sign s) as [neg s1] eqn:E. rewrite nat_scan10_false.
  destruct (scan_inv s1) as [(-> & _)|(a & t & m & f & -> & M & St & ->)]; [discriminate|].
  pose proof (scan_exp_inv t) as X. destruct (scan_exponent false t) as [[[x b] s3]|]; [|discriminate].
  destruct (negb (m =? 0) && negb ((- 2 ^ 31 <=? Z.log2 m + 1 - f + x) && (Z.log2 m + 1 - f + x <=? 2 ^ 31 - 1))) eqn:G; [discriminate|].
  destruct s3 as [|? ?]; [|discriminate]. intros _. right. exists neg, m, f, b, x. destruct X as [X R]. split; [eapply numeral_of; eassumption|]. split; [exact R|].
  unfold float_range. rewrite andb_false_iff, !negb_false_iff, andb_true_iff, Z.eqb_eq, !Z.leb_le in G. exact G.
Qed.

(** ** big.Rat.SetString *)
Lemma no_slash_digits l : digits_only l -> ~ In 47 l.
Proof. intros D I. apply (proj1 (Forall_forall _ _) D) in I. cbn in I. lia. Qed.
Lemma split_slash_none s : ~ In 47 s -> split_slash s = None.
Proof.
  induction s as [|c s IH]; [reflexivity|]. intros N. cbn [split_slash]. rewrite (proj2 (Z.eqb_neq c 47)) by (intros ->; apply N; cbn; auto).
  rewrite IH by (intros I; apply N; cbn; auto). reflexivity.
Qed.
Lemma split_slash_app a b : ~ In 47 a -> split_slash (a ++ 47 :: b) = Some (a, b).
Proof.
  induction a as [|c a IH]; [reflexivity|]. intros N. cbn [app split_slash]. rewrite (proj2 (Z.eqb_neq c 47)) by (intros ->; apply N; cbn; auto).
  rewrite IH by (intros I; apply N; cbn; auto). reflexivity.
Qed.
Lemma no_slash_numeral s neg m f b x : numeral s neg m f b x -> ~ In 47 s.
Proof.
  assert (KD : forall l x, decimal_text l x -> ~ In 47 l).
  { intros l y [d (N & D)|d (N & D)|d (N & D)] I; try (destruct I as [I|I]; [discriminate|]); revert I; apply no_slash_digits, D. }
  assert (K : forall a t m f b x, mantissa a m f -> exponent t b x -> ~ In 47 (a ++ t)).
  { intros a t m0 f0 b0 x0 M X I. apply in_app_or in I as [I|I].
    - destruct M as [l (N & D)|l r Dl Dr N]; [revert I; apply no_slash_digits, D|].
      apply in_app_or in I as [I|[I|I]]; [revert I; apply no_slash_digits, Dl|discriminate|revert I; apply no_slash_digits, Dr].
    - destruct X as [|c l y C D|c l y C D]; [exact I| |]; (destruct I as [I|I]; [subst c; lia|revert I; eapply KD, D]). }
  intros [a t m0 f0 b0 x0 M X|a t m0 f0 b0 x0 M X|a t m0 f0 b0 x0 M X]; try (intros [I|I]; [discriminate|revert I]); eapply K; eassumption.
Qed.
Lemma numeral_no_prefix a t m f b x : mantissa a m f -> exponent t b x -> no_prefix true (a ++ t).
Proof.
  intros M X. destruct (mantissa_head _ _ _ M) as (c & r & E & H). destruct (Z.eq_dec c 48) as [->|N].
  - assert (K : forall ch rest, a ++ t = 48 :: ch :: rest -> 48 <= ch <= 57 \/ ch = 46 \/ ch = 101 \/ ch = 69 \/ ch = 112 \/ ch = 80).
    { intros ch rest Eq. assert (D1 : 48 <= ch <= 57 \/ ch = 46 \/ exists rest', t = ch :: rest').
      { destruct M as [l (Nl & D)|l r' Dl Dr Nl].
        - rewrite E in Eq. cbn in Eq. injection Eq as Eq. destruct r as [|d r]; [cbn in Eq; eauto|]. cbn in Eq. injection Eq as -> _.
          rewrite E in D. inversion D as [|? ? ? D2]; subst. inversion D2; subst. left. assumption.
        - rewrite <- app_assoc in Eq. destruct l as [|d1 [|d2 l]]; cbn in Eq.
          + discriminate Eq.
          + injection Eq as _ <- _. auto.
          + injection Eq as _ -> _. left. inversion Dl as [|? ? ? D2]; subst. inversion D2; subst. assumption. }
      destruct D1 as [D1|[D1|(rest' & ->)]]; [tauto|tauto|]. inversion X; subst; lia. }
    destruct (a ++ t) as [|c1 [|ch rest]] eqn:Eq; [exact Logic.I|destruct c1; try exact Logic.I; repeat (destruct p; try exact Logic.I)|].
    rewrite E in Eq. cbn in Eq. injection Eq as <- Eq. specialize (K ch rest eq_refl). cbn. intros I. decompose [or] I; subst; try lia.
  - rewrite E. cbn [app]. destruct c as [|c|c]; try exact Logic.I. repeat (destruct c as [c|c|]; try exact Logic.I). congruence.
Qed.
Definition rat_set_string_main (s : list Z) : option Q :=
          let '(neg, s1) := scan_sign s in
          match nat_scan true true s1 with
          | None => None
          | Some (m, base, f, s2) =>
              match scan_exponent true s2 with
              | Some (x, b, []) =>
                  if m =? 0 then Some 0%Q else
                  let exp5 := (if base =? 10 then - f else 0) + (if b =? 10 then x else 0) in
                  let exp2 := (if base =? 8 then - (3 * f) else if base =? 16 then - (4 * f) else - f) + x in
                  if 1000000 <? Z.abs exp5 then None
                  else if 10000000 <? Z.abs exp2 then None
                  else
                    let '(n5, d5) := pow_nd 5 exp5 in
                    let '(n2, d2) := pow_nd 2 exp2 in
                    Some (Qred (Qmake ((if neg then - m else m) * n5 * n2) (Z.to_pos (d5 * d2))))
              | _ => None
              end
          end.
Lemma rat_set_string_no_slash s : s <> [] -> ~ In 47 s -> rat_set_string s = rat_set_string_main s.
Proof. intros N I. unfold rat_set_string. rewrite (split_slash_none s I). destruct s; [congruence|reflexivity]. Qed.
Lemma inject_Z_0 z : (inject_Z z == 0)%Q -> z = 0. Proof. unfold Qeq. cbn. lia. Qed.
Lemma rat_numeral s neg m f b x : numeral s neg m f b x -> int64 x ->
  (rat_range m f b x -> rat_set_string s = Some (Qred (numeral_value neg m f b x))) /\ (~ rat_range m f b x -> rat_set_string s = None).
Proof.
  intros H R. destruct (numeral_inv _ _ _ _ _ _ H) as (a & t & E & M & X & N & I1 & I2).
  rewrite (rat_set_string_no_slash s N (no_slash_numeral _ _ _ _ _ _ H)). unfold rat_set_string_main.
  rewrite E, (nat_scan10_true true (a ++ t) (numeral_no_prefix _ _ _ _ _ _ M X)), (scan_mantissa true a m f t M (exponent_stops _ _ _ _ X)), (scan_exp_ok true t b x X R).
  destruct (mantissa_nonneg _ _ _ M) as [Hm Hf]. unfold rat_range.
  destruct (m =? 0) eqn:Z0.
  - apply Z.eqb_eq in Z0. subst m. split; [intros _|tauto]. f_equal. change 0%Q with (Qred 0). apply Qred_complete.
    unfold numeral_value. destruct neg; cbn [Z.opp]; change (inject_Z 0) with 0%Q; rewrite !Qmult_0_l; reflexivity.
  - apply Z.eqb_neq in Z0. cbn [Z.eqb Pos.eqb]. set (e5 := - f + (if b =? 10 then x else 0)). set (e2 := - f + x).
    destruct (1000000 <? Z.abs e5) eqn:G5; [apply Z.ltb_lt in G5; split; [lia|reflexivity]|]. apply Z.ltb_ge in G5.
    destruct (10000000 <? Z.abs e2) eqn:G2; [apply Z.ltb_lt in G2; split; [lia|reflexivity]|]. apply Z.ltb_ge in G2.
    split; [intros _|tauto].
    destruct (pow_nd_spec 5 e5) as (A1 & A2 & A3); [lia|]. destruct (pow_nd 5 e5) as [n5 d5]. cbn [fst snd] in *.
    destruct (pow_nd_spec 2 e2) as (B1 & B2 & B3); [lia|]. destruct (pow_nd 2 e2) as [n2 d2]. cbn [fst snd] in *.
    f_equal. apply Qred_complete. apply make_div; [nia|]. unfold numeral_value. rewrite !inject_Z_mult, A3, B3.
    assert (Key : (inject_Z 5 ^ e5 * inject_Z 2 ^ e2 == inject_Z 10 ^ (- f) * inject_Z b ^ x)%Q).
    { assert (F5 : ~ (inject_Z 5 == 0)%Q) by (intros Y; apply inject_Z_0 in Y; lia). assert (F2 : ~ (inject_Z 2 == 0)%Q) by (intros Y; apply inject_Z_0 in Y; lia).
      assert (T : forall k, (inject_Z 10 ^ k == inject_Z 5 ^ k * inject_Z 2 ^ k)%Q).
      { intros k. rewrite <- Qmult_power. apply Qpower_comp; reflexivity. }
      unfold e5, e2. rewrite (Qpower_plus _ (- f) x F2), (Qpower_plus _ (- f) _ F5), (T (- f)).
      destruct (exponent_base _ _ _ X) as [-> | ->]; cbn [Z.eqb Pos.eqb].
      - rewrite (T x). ring.
      - change (inject_Z 5 ^ 0)%Q with 1%Q. ring. }
    transitivity (inject_Z (if neg then - m else m) * (inject_Z 5 ^ e5 * inject_Z 2 ^ e2) * (inject_Z d5 * inject_Z d2))%Q; [ring|]. rewrite Key. ring.
Qed.
