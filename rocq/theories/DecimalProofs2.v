(** Decimal strings and comparison. *)
From Verif Require Import Base GoInt Decimal DecimalSpec DecDigits DecimalProofs.
Open Scope Z_scope.
Open Scope go_scope.

Lemma digits_ok_app a b : digits_ok a -> digits_ok b -> digits_ok (a ++ b).
Proof. intros. apply Forall_app. auto. Qed.
Lemma digits_ok_zeros n : digits_ok (repeat 0 n).
Proof. induction n; constructor; auto. lia. Qed.
Lemma digits_ok_firstn n l : digits_ok l -> digits_ok (firstn n l).
Proof. intros H. rewrite <- (firstn_skipn n l) in H. apply Forall_app in H. tauto. Qed.
Lemma digits_ok_skipn n l : digits_ok l -> digits_ok (skipn n l).
Proof. intros H. rewrite <- (firstn_skipn n l) in H. apply Forall_app in H. tauto. Qed.
Lemma map_repeat {A B} (f : A -> B) x n : map f (repeat x n) = repeat (f x) n.
Proof. induction n; cbn [repeat map]; congruence. Qed.

Lemma to_string_shape d : - 2 ^ 63 < dval d < 2 ^ 63 ->
  exists int frac, digits_ok int /\ digits_ok frac /\ length frac = dscale d /\ undec (int ++ frac) = Z.abs (dval d) /\
    (1 <= length int)%nat /\
    (length int + length frac = Nat.max (length (dec (Z.abs (dval d)))) (if (dscale d =? 0)%nat then 0 else S (dscale d)))%nat /\
    to_string d = (if dval d <? 0 then [45] else []) ++ map chr int ++ (if (dscale d =? 0)%nat then [] else 46 :: map chr frac).
Proof.
  intros R. unfold to_string. rewrite abs64_abs by auto. set (n := Z.abs (dval d)). assert (Hn : 0 <= n) by lia.
  assert (S0 : int_to_string n = map chr (dec n)).
  { unfold int_to_string. destruct (Z.ltb_spec n 0); [lia|reflexivity]. }
  rewrite S0, map_length. clear S0. pose proof (dec_len_pos n Hn) as LP.
  assert (P : forall s1 s2 : list Z, s1 = s2 -> (if dval d <? 0 then 45 :: s1 else s1) = (if dval d <? 0 then [45] else []) ++ s2).
  { intros ? ? ->. destruct (dval d <? 0); reflexivity. }
  destruct (Nat.eqb_spec (dscale d) 0) as [E|E].
  - exists (dec n), []. rewrite app_nil_r. repeat split; auto using dec_ok, undec_dec.
    + constructor.
    + cbn [length]. lia.
    + apply P. rewrite app_nil_r. reflexivity.
  - destruct (Nat.leb_spec (length (dec n)) (dscale d)) as [L|L].
    + exists [0], (repeat 0 (dscale d - length (dec n)) ++ dec n). repeat split.
      * constructor; [lia|constructor].
      * apply digits_ok_app; auto using digits_ok_zeros, dec_ok.
      * rewrite app_length, repeat_length. lia.
      * rewrite !undec_app, undec_zeros, undec_dec by auto. unfold undec at 1. cbn [fold_left]. lia.
      * cbn [length]. lia.
      * rewrite app_length, repeat_length. cbn [length]. lia.
      * apply P. cbn [map app]. rewrite map_app, map_repeat. reflexivity.
    + exists (firstn (length (dec n) - dscale d) (dec n)), (skipn (length (dec n) - dscale d) (dec n)). repeat split.
      * apply digits_ok_firstn, dec_ok; auto.
      * apply digits_ok_skipn, dec_ok; auto.
      * rewrite skipn_length. lia.
      * rewrite firstn_skipn. apply undec_dec; auto.
      * rewrite firstn_length. lia.
      * rewrite firstn_length, skipn_length. lia.
      * apply P. rewrite firstn_map, skipn_map. reflexivity.
Qed.

(** ** Parsing *)
Definition no_digit (l : list Z) : Prop := match l with c :: _ => is_digit c = false | [] => True end.

Lemma span_digits_spec l rest : digits_ok l -> no_digit rest -> span_digits (map chr l ++ rest) = (map chr l, rest).
Proof.
  intros H N. induction H.
  - cbn [map app]. destruct rest; cbn [span_digits no_digit] in *; auto. rewrite N. reflexivity.
  - cbn [map app span_digits]. rewrite is_digit_chr by auto. rewrite IHForall. reflexivity.
Qed.

Lemma head_chr_not l rest c : digits_ok l -> ~ (48 <= c <= 57) -> no_digit rest -> hd_error rest <> Some c -> hd_error (map chr l ++ rest) <> Some c.
Proof.
  intros H N _ NR. inversion H; subst; cbn; auto. unfold chr. intro X. injection X as <-. lia.
Qed.

(** the number written by digits before and after the point *)
Lemma string_to_decimal_spec (neg dot : bool) int frac rest :
  digits_ok int -> digits_ok frac -> no_digit rest -> (dot = false -> frac = [] /\ hd_error rest <> Some 46) ->
  (neg = false -> int = [] -> dot = false -> hd_error rest <> Some 45) ->
  string_to_decimal ((if neg then [45] else []) ++ map chr int ++ (if dot then 46 :: map chr frac else []) ++ rest) =
    if (negb neg && (length int =? 0)%nat && negb dot && (length frac =? 0)%nat) || (18 <? length int + length frac)%nat
    then (Some ErrInvalidString, mkD 0 0 false)
    else (None, mkD ((if neg then -1 else 1) * undec (int ++ frac)) (length frac) false).
Proof.
  intros Hi Hf Nr Hd Hn. unfold string_to_decimal, match_decimal.
  set (body := map chr int ++ (if dot then 46 :: map chr frac else []) ++ rest).
  assert (M : (match (if neg then [45] else []) ++ body with 45 :: r => (true, r) | _ => (false, (if neg then [45] else []) ++ body) end) = (neg, body)).
  { destruct neg; cbn [app]; auto.
    assert (hd_error body <> Some 45).
    { unfold body. inversion Hi; subst; cbn [map app hd_error].
      - destruct dot; cbn [app hd_error]; [congruence|]. apply Hn; auto.
      - unfold chr. intro X. injection X. lia. }
    destruct body as [|c r]; auto. cbn [hd_error] in H.
    destruct (Z.eq_dec c 45) as [->|NE]; [congruence|].
    destruct c as [|p|p]; auto. do 6 (destruct p as [p|p|]; auto; try congruence). }
  rewrite M. clear M. unfold body. rewrite span_digits_spec; auto.
  2:{ destruct dot; [reflexivity|exact Nr]. }
  assert (M : (match (if dot then 46 :: map chr frac else []) ++ rest with 46 :: r => (true, r) | _ => (false, (if dot then 46 :: map chr frac else []) ++ rest) end)
              = (dot, map chr frac ++ rest)).
  { destruct dot; cbn [app]; auto. destruct (Hd eq_refl) as [-> H]. cbn [map app].
    destruct rest as [|c r]; auto. cbn [hd_error] in H.
    destruct (Z.eq_dec c 46) as [->|NE]; [congruence|].
    destruct c as [|p|p]; auto. do 6 (destruct p as [p|p|]; auto; try congruence). }
  rewrite M. clear M. rewrite span_digits_spec by auto. rewrite !map_length.
  destruct (_ || (18 <? _)%nat) eqn:C; [reflexivity|]. apply orb_false_iff in C as [_ C].
  apply Nat.ltb_ge in C. rewrite <- map_app.
  assert (B : 0 <= undec (int ++ frac) < p10 18).
  { pose proof (undec_bounds (int ++ frac) (digits_ok_app _ _ Hi Hf)) as B. rewrite app_length in B.
    pose proof (p10_mono (length int + length frac) 18 C). lia. }
  rewrite p10_18 in B.
  rewrite parse_digits_dec; auto using digits_ok_app.
  2:{ change (2 ^ 63) with 9223372036854775808. lia. }
  do 2 f_equal. destruct neg; [rewrite neg64_id by (change (2 ^ 63) with 9223372036854775808; lia)|]; lia.
Qed.

Lemma string_round_trip d : valid d -> (dscale d <= 17)%nat ->
  string_to_decimal (to_string d) = (None, mkD (dval d) (dscale d) false).
Proof.
  intros V L. destruct (to_string_shape d (valid_int64 d V)) as [int [frac [A [B [C [D [E [F G]]]]]]]].
  rewrite G. pose proof (string_to_decimal_spec (dval d <? 0) (negb (dscale d =? 0)%nat) int frac [] A B I) as S.
  rewrite app_nil_r in S.
  replace (if negb (dscale d =? 0)%nat then 46 :: map chr frac else []) with (if (dscale d =? 0)%nat then [] else 46 :: map chr frac) in S
    by (destruct (dscale d =? 0)%nat; reflexivity).
  rewrite S; clear S.
  - assert (LEN : (length int + length frac <= 18)%nat).
    { rewrite F. assert (length (dec (Z.abs (dval d))) <= 18)%nat.
      { apply dec_len_le; [lia|]. destruct V. rewrite p10_18 in *. lia. }
      destruct (dscale d =? 0)%nat; lia. }
    destruct (Nat.eqb_spec (length int) 0); [lia|]. rewrite andb_false_r. cbn [andb orb].
    destruct (Nat.ltb_spec 18 (length int + length frac)); [lia|].
    rewrite D, C. do 2 f_equal. destruct (Z.ltb_spec (dval d) 0); lia.
  - intro X. split; [|cbn; congruence]. destruct (Nat.eqb_spec (dscale d) 0); [|discriminate].
    destruct frac; auto. cbn in C. lia.
  - intros _ X. subst. cbn in E. lia.
Qed.

Lemma string_round_trip_18 d : valid d -> dscale d = 18%nat ->
  string_to_decimal (to_string d) = (Some ErrInvalidString, mkD 0 0 false).
Proof.
  intros V L. destruct (to_string_shape d (valid_int64 d V)) as [int [frac [A [B [C [D [E [F G]]]]]]]].
  rewrite G. pose proof (string_to_decimal_spec (dval d <? 0) true int frac [] A B I) as S.
  rewrite app_nil_r in S. rewrite L in *. cbn [Nat.eqb] in *.
  rewrite S; clear S.
  - destruct (Nat.ltb_spec 18 (length int + length frac)); [|lia]. rewrite orb_true_r. reflexivity.
  - discriminate.
  - intros _ X. subst. cbn in E. lia.
Qed.

(** ** Comparison *)
Lemma remove_first_minus d int rest : digits_ok int -> no_digit rest -> (1 <= length int)%nat ->
  ~ In 45 rest ->
  remove_first 45 ((if dval d <? 0 then [45] else []) ++ map chr int ++ rest) = map chr int ++ rest.
Proof.
  intros H _ L N. destruct (dval d <? 0); cbn [app remove_first]; auto.
  assert (forall l, ~ In 45 l -> remove_first 45 l = l) as R.
  { induction l; intros NI; cbn [remove_first]; auto. destruct (Z.eqb_spec a 45). { subst. exfalso. apply NI. left. auto. }
    rewrite IHl; auto. intro. apply NI. right. auto. }
  apply R. intro I. apply in_app_or in I as [I|I]; auto.
  apply in_map_iff in I as [x [E I]]. unfold digits_ok in H. rewrite Forall_forall in H. specialize (H x I). unfold chr in E. lia.
Qed.

Lemma split_digits l : digits_ok l -> split_on 46 (map chr l) = [map chr l].
Proof.
  induction 1; cbn [map split_on]; auto. rewrite IHForall. unfold chr at 1. destruct (Z.eqb_spec (x + 48) 46); [lia|]. reflexivity.
Qed.
Lemma split_digits_dot l r : digits_ok l -> digits_ok r -> split_on 46 (map chr l ++ 46 :: map chr r) = [map chr l; map chr r].
Proof.
  intros H R. induction H; cbn [map app split_on].
  - cbn [Z.eqb Pos.eqb]. rewrite split_digits; auto.
  - rewrite IHForall. unfold chr at 1. destruct (Z.eqb_spec (x + 48) 46); [lia|]. reflexivity.
Qed.

(** the parts AdjustDecimalFormat extracts *)
Lemma format_parts d : - 2 ^ 63 < dval d < 2 ^ 63 ->
  exists int frac, digits_ok int /\ digits_ok frac /\ length frac = dscale d /\ undec (int ++ frac) = Z.abs (dval d) /\
    let parts := split_on 46 (remove_first 45 (to_string d)) in
    nth 0 parts [] = map chr int /\ nth 1 parts [] = map chr frac /\
    (match to_string d with c :: _ => c =? 45 | [] => false end) = (dval d <? 0).
Proof.
  intros R. destruct (to_string_shape d R) as [int [frac [A [B [C [D [E [_ G]]]]]]]].
  exists int, frac. do 4 (split; auto). rewrite G.
  assert (H : (match (if dval d <? 0 then [45] else []) ++ map chr int ++ (if (dscale d =? 0)%nat then [] else 46 :: map chr frac)
               with c :: _ => c =? 45 | [] => false end) = (dval d <? 0)).
  { destruct (dval d <? 0); cbn [app]; auto. destruct int as [|x int]; [cbn in E; lia|].
    cbn [map app]. inversion A; subst. unfold chr. destruct (Z.eqb_spec (x + 48) 45); auto. lia. }
  rewrite H. cbv zeta. rewrite remove_first_minus; auto.
  - destruct (Nat.eqb_spec (dscale d) 0).
    + rewrite app_nil_r, split_digits by auto. destruct frac; [|cbn in C; lia]. auto.
    + rewrite split_digits_dot by auto. auto.
  - destruct (dscale d =? 0)%nat; cbn; auto.
  - destruct (dscale d =? 0)%nat; cbn; [tauto|]. intros [X|X]; [lia|].
    apply in_map_iff in X as [y [X I]]. unfold digits_ok in B. rewrite Forall_forall in B. specialize (B y I). unfold chr in X. lia.
Qed.

Lemma sgn_mul_pos a k : 0 < k -> Z.sgn (a * k) = Z.sgn a.
Proof. intros. rewrite Z.sgn_mul, (Z.sgn_pos k) by auto. lia. Qed.

Lemma cmp_spec d o : - 2 ^ 63 < dval d < 2 ^ 63 -> - 2 ^ 63 < dval o < 2 ^ 63 ->
  cmp d o = Z.sgn (dval d * p10 (dscale o) - dval o * p10 (dscale d)).
Proof.
  intros R1 R2. unfold cmp, adjust_format.
  destruct (format_parts d R1) as [i1 [f1 [A1 [B1 [C1 [D1 [E1 [F1 G1]]]]]]]].
  destruct (format_parts o R2) as [i2 [f2 [A2 [B2 [C2 [D2 [E2 [F2 G2]]]]]]]].
  cbv zeta. rewrite E1, E2, F1, F2, G1, G2. clear E1 E2 F1 F2 G1 G2.
  rewrite !map_length, !repeat_length.
  set (mi := Nat.max (length i1) (length i2)). set (mf := Nat.max (length f1) (length f2)).
  assert (X1 : (0 <? length f1)%nat || (0 <? mf - length f1)%nat = (0 <? mf)%nat).
  { destruct (Nat.ltb_spec 0 (length f1)), (Nat.ltb_spec 0 (mf - length f1)), (Nat.ltb_spec 0 mf); cbn; auto; lia. }
  assert (X2 : (0 <? length f2)%nat || (0 <? mf - length f2)%nat = (0 <? mf)%nat).
  { destruct (Nat.ltb_spec 0 (length f2)), (Nat.ltb_spec 0 (mf - length f2)), (Nat.ltb_spec 0 mf); cbn; auto; lia. }
  rewrite X1, X2. clear X1 X2. cbn [hd].
  assert (CORE : lex_cmp
      (repeat 48 (mi - length i1) ++ map chr i1 ++ (if (0 <? mf)%nat then 46 :: map chr f1 ++ repeat 48 (mf - length f1) else []))
      (repeat 48 (mi - length i2) ++ map chr i2 ++ (if (0 <? mf)%nat then 46 :: map chr f2 ++ repeat 48 (mf - length f2) else []))
    = Z.sgn (Z.abs (dval d) * p10 (dscale o) - Z.abs (dval o) * p10 (dscale d))).
  { set (I1 := repeat 0 (mi - length i1) ++ i1). set (I2 := repeat 0 (mi - length i2) ++ i2).
    set (J1 := f1 ++ repeat 0 (mf - length f1)). set (J2 := f2 ++ repeat 0 (mf - length f2)).
    replace (repeat 48 (mi - length i1) ++ map chr i1 ++ (if (0 <? mf)%nat then 46 :: map chr f1 ++ repeat 48 (mf - length f1) else []))
      with (map chr I1 ++ (if (0 <? mf)%nat then 46 :: map chr J1 else [])).
    2:{ unfold I1, J1. rewrite !map_app, !map_repeat, <- app_assoc. reflexivity. }
    replace (repeat 48 (mi - length i2) ++ map chr i2 ++ (if (0 <? mf)%nat then 46 :: map chr f2 ++ repeat 48 (mf - length f2) else []))
      with (map chr I2 ++ (if (0 <? mf)%nat then 46 :: map chr J2 else [])).
    2:{ unfold I2, J2. rewrite !map_app, !map_repeat, <- app_assoc. reflexivity. }
    assert (LI1 : length I1 = mi) by (unfold I1; rewrite app_length, repeat_length; lia).
    assert (LI2 : length I2 = mi) by (unfold I2; rewrite app_length, repeat_length; lia).
    assert (LJ1 : length J1 = mf) by (unfold J1; rewrite app_length, repeat_length; lia).
    assert (LJ2 : length J2 = mf) by (unfold J2; rewrite app_length, repeat_length; lia).
    assert (OI1 : digits_ok I1) by (apply digits_ok_app; auto using digits_ok_zeros).
    assert (OI2 : digits_ok I2) by (apply digits_ok_app; auto using digits_ok_zeros).
    assert (OJ1 : digits_ok J1) by (apply digits_ok_app; auto using digits_ok_zeros).
    assert (OJ2 : digits_ok J2) by (apply digits_ok_app; auto using digits_ok_zeros).
    assert (EQ : lex_cmp (map chr I1 ++ (if (0 <? mf)%nat then 46 :: map chr J1 else []))
                         (map chr I2 ++ (if (0 <? mf)%nat then 46 :: map chr J2 else []))
                 = lex_cmp (I1 ++ J1) (I2 ++ J2)).
    { rewrite !lex_cmp_app by (rewrite ?map_length; lia). rewrite lex_cmp_chr.
      destruct (_ =? 0); auto. destruct (Nat.ltb_spec 0 mf).
      - cbn [lex_cmp]. rewrite Z.ltb_irrefl. apply lex_cmp_chr.
      - destruct J1, J2; cbn [length] in *; auto; lia. }
    rewrite EQ, lex_cmp_digits; [|rewrite !app_length; lia|apply digits_ok_app; auto|apply digits_ok_app; auto].
    assert (V1 : undec (I1 ++ J1) = Z.abs (dval d) * p10 (mf - dscale d)).
    { unfold I1, J1. rewrite <- C1, <- D1. rewrite <- !app_assoc, (app_assoc i1), !undec_app, !undec_zeros.
      rewrite repeat_length. ring. }
    assert (V2 : undec (I2 ++ J2) = Z.abs (dval o) * p10 (mf - dscale o)).
    { unfold I2, J2. rewrite <- C2, <- D2. rewrite <- !app_assoc, (app_assoc i2), !undec_app, !undec_zeros.
      rewrite repeat_length. ring. }
    rewrite V1, V2, <- (sgn_mul_pos _ (p10 (Nat.min (dscale d) (dscale o)))) by apply p10_pos.
    f_equal. rewrite Z.mul_sub_distr_r, <- !Z.mul_assoc, <- !p10_add.
    f_equal; f_equal; f_equal; unfold mf; lia. }
  assert (LX : forall a l1 l2, lex_cmp (a :: l1) (a :: l2) = lex_cmp l1 l2).
  { intros. cbn [lex_cmp]. rewrite Z.ltb_irrefl. reflexivity. }
  pose proof (p10_pos (dscale d)). pose proof (p10_pos (dscale o)).
  destruct (Z.ltb_spec (dval d) 0), (Z.ltb_spec (dval o) 0).
  - cbn [Z.eqb Pos.eqb andb orb]. rewrite LX, CORE. rewrite !Z.abs_neq by lia. rewrite <- Z.sgn_opp. f_equal. ring.
  - cbn [Z.eqb Pos.eqb andb orb lex_cmp Z.ltb Z.compare Pos.compare Pos.compare_cont]. symmetry. apply Z.sgn_neg. nia.
  - cbn [Z.eqb Pos.eqb andb orb lex_cmp Z.ltb Z.compare Pos.compare Pos.compare_cont]. symmetry. apply Z.sgn_pos. nia.
  - cbn [Z.eqb Pos.eqb andb orb]. rewrite LX, CORE. rewrite !Z.abs_eq by lia. reflexivity.
Qed.

Lemma remove_first_notin c l : ~ In c l -> remove_first c l = l.
Proof. induction l as [|x r IH]; cbn; [auto|]. intros N. destruct (Z.eqb_spec x c); [tauto|]. rewrite IH; tauto. Qed.
Lemma remove_first_app c a b : ~ In c a -> remove_first c (a ++ c :: b) = a ++ b.
Proof. induction a as [|x r IH]; cbn; [rewrite Z.eqb_refl; auto|]. intros N. destruct (Z.eqb_spec x c); [tauto|]. rewrite IH; tauto. Qed.

Lemma precision_spec d : valid d ->
  (Z.abs (dval d) < p10 (precision d) /\ (S (dscale d) <= precision d)%nat) /\
  forall p, Z.abs (dval d) < p10 p -> (S (dscale d) <= p)%nat -> (precision d <= p)%nat.
Proof.
  intros V. destruct (to_string_shape d (valid_int64 d V)) as [int [frac [A [B [C [D [E [F G]]]]]]]].
  assert (NI : forall c l, (c < 48 \/ 57 < c) -> Forall (fun x => 0 <= x <= 9) l -> ~ In c (map chr l)).
  { intros c l R W I. apply in_map_iff in I. destruct I as [x [X1 X2]]. unfold chr in X1. rewrite Forall_forall in W. specialize (W x X2). lia. }
  assert (L : precision d = (length int + length frac)%nat).
  { unfold precision. rewrite G.
    assert (N1 : ~ In 45 (map chr int ++ (if (dscale d =? 0)%nat then [] else 46 :: map chr frac))).
    { rewrite in_app_iff. intros [I|I]; [apply (NI 45 int) in I; auto; lia|]. destruct (dscale d =? 0)%nat; [destruct I|].
      destruct I as [I|I]; [discriminate|]. apply (NI 45 frac) in I; auto; lia. }
    assert (R : remove_first 45 ((if dval d <? 0 then [45] else []) ++ map chr int ++ (if (dscale d =? 0)%nat then [] else 46 :: map chr frac))
                = map chr int ++ (if (dscale d =? 0)%nat then [] else 46 :: map chr frac)).
    { destruct (dval d <? 0); cbn [app]; [cbn [remove_first]; rewrite Z.eqb_refl; auto|apply remove_first_notin; auto]. }
    rewrite R. destruct (Nat.eqb_spec (dscale d) 0) as [Z0|Z0].
    - rewrite app_nil_r, remove_first_notin by (apply NI; auto; lia). rewrite map_length. lia.
    - rewrite remove_first_app by (apply NI; auto; lia). rewrite app_length, !map_length. lia. }
  rewrite L, F. set (n := Z.abs (dval d)) in *. assert (N0 : 0 <= n) by (unfold n; lia).
  pose proof (dec_lt_len n N0) as LT. pose proof (dec_len_pos n N0) as LP. split.
  - split.
    + eapply Z.lt_le_trans; [exact LT|]. apply p10_mono. lia.
    + destruct (Nat.eqb_spec (dscale d) 0); lia.
  - intros p P1 P2. apply Nat.max_lub; [|destruct (dscale d =? 0)%nat; lia].
    apply dec_len_le; auto. destruct (Z.max_spec 1 n) as [[_ ->]|[_ ->]]; auto.
    pose proof (p10_mono 1 p ltac:(lia)). change (p10 1) with 10 in H. lia.
Qed.
